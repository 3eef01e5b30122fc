(** C06: escape sequences in source text. *)
From Coq Require Import String.
From Verif Require Import Base CharTypes Escape EscapeSpec EscapeProofs.

(** Every simple escape, every octal escape and every one-digit hexadecimal
    escape, followed by any byte other than 0xff at which the escape ends, is
    read as the value C11 gives it, consuming exactly the escape. *)
Theorem C06_escape_value_partial :
  forall e v next rest n,
  c_escape e v -> short_hex e -> escape_ends e next ->
  0 <= next < 255 -> (length e <= n)%nat ->
  escape_sequence_read (e ++ next :: rest) n = Ok (Some (v, length e)).
Proof. exact escape_read_spec. Qed.
Print Assumptions C06_escape_value_partial.

(** Whole ordinary string literals made of plain characters and such escapes
    denote the bytes C11 gives them. *)
Theorem C06_string_literal_partial :
  forall b v rest,
  body_value short_hex b v 34 -> Forall (fun c => c <> 255) b ->
  escape_string_to_buffer (34 :: b ++ 34 :: rest) (length b + 2) STRING_DEFAULT = Ok v.
Proof. intros b v rest. apply literal_spec. auto. Qed.
Print Assumptions C06_string_literal_partial.

(** Missing: hexadecimal escapes with more than one digit are read in base 8;
    "\x41" yields 33 instead of 65. *)
Theorem C06_hex_refuted :
  exists e v next rest n, c_escape e v /\ escape_ends e next /\ 0 <= next < 255 /\ (length e <= n)%nat /\
  exists w, escape_sequence_read (e ++ next :: rest) n = Ok (Some (w, length e)) /\ w <> v.
Proof.
  exists (chars "\x41"), 65, 34, [], 5%nat. split; [|split; [|split; [lia|split; [cbn; lia|]]]].
  - apply (esc_hex [52; 49]); [discriminate|reflexivity].
  - reflexivity.
  - exists 33. split; [reflexivity|lia].
Qed.
Print Assumptions C06_hex_refuted.

(** ... and a byte 0xff after a short escape indexes the class table out of bounds. *)
Theorem C06_ff_refuted :
  exists e v rest n, c_escape e v /\ escape_ends e 255 /\ (length e <= n)%nat /\
  escape_sequence_read (e ++ 255 :: rest) n = Undef.
Proof.
  exists [92; 49], 1, [34], 4%nat. split; [|split; [|split; [cbn; lia|reflexivity]]].
  - apply (esc_oct [49]); [cbn; lia|reflexivity].
  - cbn. right. reflexivity.
Qed.
Print Assumptions C06_ff_refuted.

Example C06_nontrivial :
  c_escape (chars "\101") 65 /\ short_hex (chars "\101") /\ escape_ends (chars "\101") 49
  /\ c_escape (chars "\n") 10 /\ c_escape (chars "\xf") 15 /\ short_hex (chars "\xf").
Proof.
  repeat split; try (cbn; auto; fail).
  - apply (esc_oct [49; 48; 49]); [cbn; lia|reflexivity].
  - apply esc_simple. cbn. intuition.
  - apply (esc_hex [102]); [discriminate|reflexivity].
Qed.
Example C06_literal_nontrivial :
  escape_string_to_buffer (chars """a\tb\0601\\""") 13 STRING_DEFAULT = Ok [97; 9; 98; 48; 49; 92].
Proof. reflexivity. Qed.

(** A header name in angle brackets runs to the first closing bracket. *)
Lemma escape_loop_plain q b rest : q <> 92 -> Forall (fun c => 0 <= c < 256 /\ c <> q /\ c <> 92) b ->
  forall fuel, (length b < fuel)%nat ->
  escape_loop fuel (b ++ q :: rest) (S (length b)) q STRING_DEFAULT = Ok (b, q :: rest, 1%nat).
Proof.
  intros Q. induction b as [|c b IH]; intros F fuel Hf.
  - destruct fuel as [|fuel]; [lia|]. cbn [escape_loop app length]. unfold escape_char_to_buffer, get. cbn [nth_error bind].
    rewrite Z.eqb_refl. reflexivity.
  - inversion F as [|? ? (H1 & H2 & H3) F']; subst. destruct fuel as [|fuel]; [cbn in Hf; lia|]. cbn [escape_loop app length] in *.
    unfold escape_char_to_buffer. unfold get at 1. cbn [nth_error bind].
    rewrite (proj2 (Z.eqb_neq c q)) by auto. unfold escape_sequence_read. unfold get at 1. cbn [nth_error bind].
    rewrite (proj2 (Z.eqb_neq c 92)) by auto. cbn [negb bind].
    cbn [Nat.ltb Nat.leb skipn Nat.sub].
    rewrite IH by (auto; lia). cbn [bind char_bytes app]. rewrite Z.mod_small by lia. reflexivity.
Qed.
Theorem C06_header_name : forall b rest, Forall (fun c => 0 <= c < 256 /\ c <> 62 /\ c <> 92) b ->
  escape_string_to_buffer (60 :: b ++ 62 :: rest) (length b + 2) STRING_DEFAULT = Ok b.
Proof.
  intros b rest F. replace (length b + 2)%nat with (S (S (length b))) by lia.
  unfold escape_string_to_buffer. unfold get at 1. cbn [nth_error bind].
  change (60 =? 60) with true. cbv iota. cbn [skipn].
  rewrite escape_loop_plain by (auto; lia). cbn [bind]. unfold get. cbn [nth_error bind].
  rewrite Z.eqb_refl. reflexivity.
Qed.
Print Assumptions C06_header_name.
Example C06_header_nontrivial : Forall (fun c => 0 <= c < 256 /\ c <> 62 /\ c <> 92) (chars "sys/a<b.h").
Proof. repeat (apply Forall_cons; [cbn; lia|]). apply Forall_nil. Qed.
