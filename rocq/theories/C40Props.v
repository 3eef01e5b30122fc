(** C40: the image of an object with static storage duration. *)
From Coq Require Import String Permutation.
From Verif Require Import Base CharTypes Bytes BytesSpec BytesProofs Object ObjectSpec ObjectProofs
  StaticData StaticDataSpec StaticDataProofs StaticDataEmit.
Ltac Zify.zify_post_hook ::= idtac.
Local Open Scope Z_scope.
Local Open Scope list_scope.

(** The relocation that puts the address [p] into an object at [start]. *)
Definition address_at (start : Z) (p : pointer) : fixup :=
  {| f_type := RELOCATE_64; f_symbol := p_label p; f_offset := (start + p_offset p) mod 2 ^ 64; f_add := p_add p |}.

(** An object of type [t] with initializer [i] is given room in .data, aligned,
    under its label: [image] is as long as the type, holds the value of every
    scalar, character and bit-field that the initializer gives in its place and
    zero bits elsewhere, and there is one relocation for each address that the
    initializer gives, and no other. Nothing else in the object file changes.

    Missing from the full property: initialisers that are not constant and
    strings longer than their array, see below. *)
Theorem C40_image_partial : forall label t i global alignment v,
  laid_out t -> fits i t None -> 0 < alignment ->
  exists requests image fixups,
    codegen_static_var label t i global alignment = Ok requests /\ Forall request_ok requests /\
    let v' := meaning_all requests v in
    let data := chars ".data" in
    let old := bytes_of v data in
    let zeros := repeat 0 (Z.to_nat (padding (Z.of_nat (length old)) alignment)) in
    let start := Z.of_nat (length (old ++ zeros)) in
    (* the bytes *)
    bytes_of v' data = old ++ zeros ++ image /\ (alignment | start) /\ Z.of_nat (length image) = isize t /\
    (forall it k, In it (items i t None 0) -> 0 <= k < i_width it -> bit image (i_start it + k) = Z.testbit (i_value it) k) /\
    (forall k, 0 <= k -> (forall it, In it (items i t None 0) -> ~ covers it k) -> bit image k = false) /\
    (* the addresses *)
    fixups_of v' data = fixups_of v data ++ fixups /\ Permutation fixups (map (address_at start) (pointers i t None 0)) /\
    (* the symbol *)
    (forall s, definition_of v' s = if name_eqb s label then Some {| d_section := data; d_offset := start; d_global := global |} else definition_of v s) /\
    (* nothing else *)
    (forall s, s <> data -> bytes_of v' s = bytes_of v s /\ fixups_of v' s = fixups_of v s) /\ here v' = chars ".text".
Proof.
  intros label t i global alignment v LO F AL.
  assert (G : exists content image fixups,
    match i with INone => Ok [WriteZero (isize t)] | _ => codegen_initializer t i end = Ok content /\ Forall request_ok content /\
    Z.of_nat (length image) = isize t /\
    (forall it k, In it (items i t None 0) -> 0 <= k < i_width it -> bit image (i_start it + k) = Z.testbit (i_value it) k) /\
    (forall k, 0 <= k -> (forall it, In it (items i t None 0) -> ~ covers it k) -> bit image k = false) /\
    Permutation fixups (pointers i t None 0) /\
    forall w, adds w (meaning_all content w) image (map (address_at (position w)) fixups)).
  { pose proof (isize_nonneg t LO) as S0. destruct (final_image t i LO F) as (im & E & L & O & GD & IT & ZE & PM).
    assert (RO : forall n b m, Forall request_ok (emit n b m)).
    { clear. induction n as [|n IH]; intros b m; cbn [emit]; [constructor|].
      destruct b as [|x b]; [constructor|]. destruct m as [|[(l, a)|] m]; [constructor| |].
      - constructor; [exact I|]. constructor; [exact I|]. apply IH.
      - destruct (_ =? _)%nat; constructor; try exact I; apply IH. }
    assert (EM : forall w, adds w (meaning_all (emit (Z.to_nat (isize t)) (buffer im) (marks im)) w) (buffer im)
                   (map (address_at (position w)) (marked 0 (marks im)))).
    { intros w. pose proof (emit_ok (Z.to_nat (isize t)) (buffer im) (marks im) w ltac:(lia) O GD) as A.
      rewrite <- (Z.add_0_r (position w)), fixups_marked in A. exact A. }
    destruct i; try (exists (emit (Z.to_nat (isize t)) (buffer im) (marks im)), (buffer im), (marked 0 (marks im));
      split; [unfold codegen_initializer; rewrite E; reflexivity|]; split; [apply RO|]; split; [rewrite L; lia|];
      split; [exact IT|]; split; [exact ZE|]; split; [exact PM|exact EM]).
    exists [WriteZero (isize t)], (repeat 0 (Z.to_nat (isize t))), []. split; [reflexivity|].
    split; [constructor; [exact I|constructor]|]. split; [rewrite repeat_length; lia|].
    split; [intros it k []|]. split; [intros k _ _; apply bit_repeat|]. split; [constructor|].
    intros w. apply adds_append. }
  destruct G as (content & image & ptrs & E & RC & L & IT & ZE & PM & AD).
  set (data := chars ".data").
  set (v0 := meaning (Section_ data) v).
  set (zeros := repeat 0 (Z.to_nat (padding (Z.of_nat (length (bytes_of v data))) alignment))).
  set (v1 := append v0 zeros).
  set (v2 := meaning (Define label global) v1).
  set (start := Z.of_nat (length (bytes_of v data ++ zeros))).
  assert (B1 : bytes_of v1 data = bytes_of v data ++ zeros) by (unfold v1, append; cbn [bytes_of here v0 meaning]; rewrite upd_same; reflexivity).
  assert (P1 : position v1 = start) by (unfold position; change (here v1) with data; rewrite B1; reflexivity).
  exists ([Section_ data; Align alignment; Define label global] ++ content ++ [Section_ (chars ".text")]), image, (map (address_at start) ptrs).
  split; [unfold codegen_static_var; rewrite E; reflexivity|].
  split. { constructor; [exact I|]. constructor; [exact AL|]. constructor; [exact I|]. apply Forall_app. split; [exact RC|]. constructor; [exact I|constructor]. }
  cbv zeta. fold data. fold zeros. fold start.
  assert (M : meaning_all ([Section_ data; Align alignment; Define label global] ++ content ++ [Section_ (chars ".text")]) v
              = meaning (Section_ (chars ".text")) (meaning_all content v2)).
  { unfold meaning_all. rewrite !fold_left_app. reflexivity. }
  rewrite M. destruct (AD v2) as (A1 & A2 & A3 & A4 & A5).
  change (here v2) with data in *. change (position v2) with (position v1) in *. rewrite P1 in A3.
  change (bytes_of v2 data) with (bytes_of v1 data) in A2. rewrite B1 in A2.
  cbn [meaning bytes_of fixups_of definition_of here].
  split; [rewrite A2, app_assoc; reflexivity|].
  split.
  { unfold start. rewrite app_length. unfold zeros. rewrite repeat_length.
    unfold padding. set (n := Z.of_nat (length (bytes_of v data))).
    pose proof (Z.mod_pos_bound (- n) alignment AL). rewrite Nat2Z.inj_add, Z2Nat.id by lia. fold n.
    exists (- ((- n) / alignment)). pose proof (Z.div_mod (- n) alignment ltac:(lia)). lia. }
  split; [exact L|]. split; [exact IT|]. split; [exact ZE|].
  split; [exact A3|]. split; [apply Permutation_map, PM|].
  split.
  { intros s. rewrite A5. unfold v2. cbn [meaning definition_of]. unfold upd. change (here v1) with data. rewrite P1. reflexivity. }
  split; [|reflexivity].
  intros s S'. destruct (A4 s S') as (X1 & X2). rewrite X1, X2. split; [|reflexivity].
  change (bytes_of v2 s) with (bytes_of v1 s). unfold v1, append. cbn [bytes_of here v0 meaning]. apply upd_other. exact S'.
Qed.
Print Assumptions C40_image_partial.

(** struct { char c; int x : 3, y : 5; char *p; short a[3]; } with the
    initializer { 'A', 5, 17, &s + 4, { 1, [2] = 3 } }, an array of two of
    them, the second with a string in place of .a left out; and a union. *)
Definition example_struct : itype :=
  IStruct 24 [(0, None, IScalar 1); (4, Some (0, 3), IScalar 4); (4, Some (3, 5), IScalar 4); (8, None, IScalar 8);
              (16, None, IArray 3 (IScalar 2))].
Definition example_init : initializer :=
  IBrace [IConstant 1 65; IConstant 4 5; IConstant 4 17; IAddress (chars "s") 4; IBrace [IConstant 2 1; INone; IConstant 2 3]].
Example C40_example_fits : laid_out (IArray 2 example_struct) /\ fits (IBrace [example_init; INone]) (IArray 2 example_struct) None.
Proof.
  split; [cbn; intuition (lia || eauto)|].
  cbn [fits]. split; [reflexivity|]. split; [cbn; lia|]. split.
  - split; [|split; [|exact I]].
    + do 3 eexists. split; [reflexivity|]. unfold example_init. cbn [fits]. split; [reflexivity|]. split; [cbn; lia|]. split.
      * split; [do 3 eexists; split; [reflexivity|split; [reflexivity|lia]]|].
        split; [do 3 eexists; split; [reflexivity|split; [reflexivity|lia]]|].
        split; [do 3 eexists; split; [reflexivity|split; [reflexivity|lia]]|].
        split; [do 3 eexists; split; [reflexivity|split; reflexivity]|].
        split; [|exact I]. do 3 eexists. split; [reflexivity|]. cbn [fits]. split; [reflexivity|]. split; [cbn; lia|]. split.
        -- split; [do 3 eexists; split; [reflexivity|split; [reflexivity|lia]]|].
           split; [do 3 eexists; split; [reflexivity|exact I]|].
           split; [do 3 eexists; split; [reflexivity|split; [reflexivity|lia]]|exact I].
        -- intros j k a b oa ba ta ob bb tb N _ _ _ _ C1 C2. injection C1 as <- <- <-. injection C2 as <- <- <-.
           unfold apart, region. cbn [fst snd isize]. lia.
      * intros j k a b oa ba ta ob bb tb N _ _ _ _ C1 C2.
        do 5 (destruct j as [|j]; [do 5 (destruct k as [|k];
          [first [contradiction | (injection C1 as <- <- <-; injection C2 as <- <- <-; unfold apart, region; cbn; lia)]|]);
          destruct k; discriminate|]). destruct j; discriminate.
    + do 3 eexists. split; [reflexivity|exact I].
  - intros j k a b oa ba ta ob bb tb N _ _ _ _ C1 C2. injection C1 as <- <- <-. injection C2 as <- <- <-.
    unfold apart, region, example_struct. cbn [fst snd isize]. lia.
Qed.
Example C40_example_image :
  match codegen_static_var (chars "v") (IArray 2 example_struct) (IBrace [example_init; INone]) true 8 with
  | Ok requests =>
      let v := meaning_all requests view_start in
      bytes_of v (chars ".data") =
        [65; 0; 0; 0; 141; 0; 0; 0; 0; 0; 0; 0; 0; 0; 0; 0; 1; 0; 0; 0; 3; 0; 0; 0] ++ repeat 0 24 /\
      fixups_of v (chars ".data") = [{| f_type := RELOCATE_64; f_symbol := chars "s"; f_offset := 8; f_add := 4 |}]
  | _ => False
  end.
Proof. vm_compute. split; reflexivity. Qed.

(** The full property is false. A string literal token has its final zero with
    it and codegen_initializer_recursive copies all of it, also into an array
    that has no room for the zero, as in char s[3] = "abc" (6.7.9p14): for
    every string that fits its array only without its zero, at the end of the
    object, the zero is written past the end of the buffer. *)
Theorem C40_string_refuted : forall label n str global alignment,
  length str = S n -> codegen_static_var label (IArray n (IScalar 1)) (IString str) global alignment = Undef.
Proof.
  intros label n str global alignment L. unfold codegen_static_var, codegen_initializer. cbn [put_initializer isize buffer marks].
  assert (PS : forall str buf pos, (length buf < pos + length str)%nat -> (pos <= length buf)%nat -> put_string str buf pos = Undef).
  { clear. induction str as [|c str IH]; intros buf pos L P; cbn [length put_string] in *; [lia|].
    unfold put. destruct (Nat.ltb_spec pos (length buf)) as [Q|Q]; [|reflexivity]. cbn [bind].
    apply IH; rewrite set_nth_length; lia. }
  rewrite PS; [reflexivity| |]; rewrite repeat_length; lia.
Qed.
Print Assumptions C40_string_refuted.
(** char s[3] = "abc"; *)
Example C40_string_example : codegen_static_var (chars "s") (IArray 3 (IScalar 1)) (IString (chars "abc" ++ [0])) true 1 = Undef.
Proof. apply C40_string_refuted. reflexivity. Qed.

(** An initializer that is not constant gives no diagnostic (6.7.9p4): the
    object is zero. *)
Theorem C40_not_constant_refuted : forall label size global alignment,
  codegen_static_var label (IScalar size) INotConstant global alignment =
  codegen_static_var label (IScalar size) (IBrace []) global alignment.
Proof. reflexivity. Qed.
Print Assumptions C40_not_constant_refuted.
