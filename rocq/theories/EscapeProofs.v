From Verif Require Import Base CharTypes Utf8 Common Escape EscapeSpec Utf8Proofs.
Ltac Zify.zify_post_hook ::= Z.div_mod_to_equations.

(** Shape of the printed form of a byte, decided for all bytes. *)
Definition octs (a b d v : Z) : bool :=
  oct_digit a && oct_digit b && oct_digit d && ((a - 48) * 64 + (b - 48) * 8 + (d - 48) =? v).
Definition gas_shape (b : Z) (r : res (list Z)) : bool :=
  match r with
  | Ok [x] => (x =? b) && negb (x =? 34) && negb (x =? 92) && (32 <=? x) && (x <? 127)
  | Ok [s; x] => (s =? 92) && negb (oct_digit x)
                 && match gas_simple x with Some v => v =? b | None => false end
  | Ok [s; x; y; z] => (s =? 92) && octs x y z b
  | _ => false
  end.
Lemma gas_shape_all : forall b, 0 <= b < 256 -> b <> 127 ->
  gas_shape b (character_to_escape_sequence b false) = true.
Proof.
  intros b Hb N.
  pose proof (byte_forall (fun b => (b =? 127) || gas_shape b (character_to_escape_sequence b false))
    ltac:(vm_compute; reflexivity) b Hb) as G. cbv beta in G.
  apply Bool.orb_prop in G. destruct G as [G|G]; auto. apply Z.eqb_eq in G. contradiction.
Qed.

Ltac bools := repeat match goal with
  | H : (_ && _) = true |- _ => apply andb_prop in H; destruct H
  | H : negb _ = true |- _ => apply Bool.negb_true_iff in H
  | H : (_ =? _) = true |- _ => apply Z.eqb_eq in H
  | H : (_ =? _) = false |- _ => apply Z.eqb_neq in H
  | H : (_ <=? _) = true |- _ => apply Z.leb_le in H
  | H : (_ <? _) = true |- _ => apply Z.ltb_lt in H
  end.

Lemma gas_shape_read b e r : 0 <= b < 256 -> gas_shape b (Ok e) = true -> gas_read (e ++ r) = ocons b (gas_read r).
Proof.
  intros Hb H. destruct e as [|x [|y [|z [|w [|]]]]]; try discriminate H; cbn [gas_shape] in H; bools; subst.
  - cbn [app gas_read].
    rewrite (proj2 (Z.eqb_neq b 34)), (proj2 (Z.eqb_neq b 92)) by auto. cbn [negb].
    rewrite (proj2 (Z.leb_le 32 b)), (proj2 (Z.ltb_lt b 127)) by auto. reflexivity.
  - cbn [app gas_read]. change (92 =? 34) with false. change (negb (92 =? 92)) with false. cbv iota.
    match goal with O : oct_digit _ = false |- _ => rewrite O end.
    destruct (gas_simple y); [|discriminate]. bools; subst. reflexivity.
  - unfold octs in *. bools.
    cbn [app gas_read]. change (92 =? 34) with false. change (negb (92 =? 92)) with false. cbv iota.
    repeat match goal with O : oct_digit _ = true |- _ => rewrite O; clear O end. cbv iota. f_equal.
    match goal with O : _ = b |- _ => rewrite O end. apply Z.mod_small; auto.
Qed.

Lemma escape_all_read l : bytes_ok l -> ~ In 127 l ->
  exists e, escape_all false l = Ok e /\ gas_read e = Some l.
Proof.
  unfold bytes_ok, is_byte. induction l as [|b l IH]; intros Hl N.
  - exists []. auto.
  - inversion Hl; subst. destruct IH as [e [E R]]; [auto|intro; apply N; right; auto|].
    pose proof (gas_shape_all b ltac:(auto) ltac:(intro; apply N; left; auto)) as G.
    cbn [escape_all]. destruct (character_to_escape_sequence b false) as [e0| |]; try discriminate G.
    rewrite E. cbn [bind]. exists (e0 ++ e). split; auto.
    rewrite (gas_shape_read b) by auto. rewrite R. auto.
Qed.

Lemma string_line l : bytes_ok l -> ~ In 127 l ->
  exists t, asm_string_text l = Ok t /\ gas_string_line t = Some (asm_string_binary l).
Proof.
  intros Hl N. destruct (escape_all_read l Hl N) as [e [E R]].
  unfold asm_string_text. rewrite E. cbn [bind]. eexists; split; [reflexivity|].
  unfold gas_string_line, asm_string_binary.
  set (pre := CharTypes.chars _). set (post := chars _ ++ [10]).
  assert (Lp : length post = 2%nat) by reflexivity.
  assert (E1 : firstn (length pre) (pre ++ e ++ post) = pre)
    by (rewrite firstn_app, firstn_all, Nat.sub_diag, firstn_O, app_nil_r; auto).
  assert (E2 : skipn (length (pre ++ e ++ post) - 2) (pre ++ e ++ post) = post).
  { rewrite !app_length.
    replace (length pre + (length e + length post) - 2)%nat with (length (pre ++ e)) by (rewrite app_length; lia).
    rewrite app_assoc. rewrite skipn_app, skipn_all, Nat.sub_diag. auto. }
  assert (E3 : firstn (length (pre ++ e ++ post) - 2 - length pre) (skipn (length pre) (pre ++ e ++ post)) = e).
  { rewrite skipn_app, skipn_all, Nat.sub_diag. cbn [app skipn]. rewrite !app_length.
    replace (length pre + (length e + length post) - 2 - length pre)%nat with (length e) by lia.
    rewrite firstn_app, firstn_all, Nat.sub_diag, firstn_O, app_nil_r. auto. }
  rewrite E1, E2, E3, R.
  destruct (list_eq_dec Z.eq_dec pre pre); [|contradiction].
  destruct (list_eq_dec Z.eq_dec post post); [|contradiction]. auto.
Qed.

(** Reading escapes. *)
Lemma is_octal_spec c : 0 <= c < 255 -> is_octal c = Ok (oct_digit c).
Proof.
  intros Hc.
  pose proof (byte_forall (fun c => (c =? 255) || match is_octal c with Ok b => Bool.eqb b (oct_digit c) | _ => false end)
    ltac:(vm_compute; reflexivity) c ltac:(lia)) as G. cbv beta in G.
  apply Bool.orb_prop in G. destruct G as [G|G]; [apply Z.eqb_eq in G; lia|].
  destruct (is_octal c); try discriminate. f_equal. apply Bool.eqb_prop; auto.
Qed.
Lemma is_hex_spec c : 0 <= c < 255 -> is_hexadecimal c = Ok (hex_digit c).
Proof.
  intros Hc.
  pose proof (byte_forall (fun c => (c =? 255) || match is_hexadecimal c with Ok b => Bool.eqb b (hex_digit c) | _ => false end)
    ltac:(vm_compute; reflexivity) c ltac:(lia)) as G. cbv beta in G.
  apply Bool.orb_prop in G. destruct G as [G|G]; [apply Z.eqb_eq in G; lia|].
  destruct (is_hexadecimal c); try discriminate. f_equal. apply Bool.eqb_prop; auto.
Qed.
Lemma char_to_int_hex c : hex_digit c = true -> char_to_int c = Ok (hex_val c) /\ 0 <= hex_val c < 16.
Proof.
  unfold hex_digit, char_to_int, hex_val. intros H.
  destruct (Z.leb_spec 48 c), (Z.leb_spec c 57), (Z.leb_spec 65 c), (Z.leb_spec c 70), (Z.leb_spec 97 c), (Z.leb_spec c 102);
    cbn [andb orb] in *; try discriminate; try lia; split; try lia; f_equal; lia.
Qed.
Lemma char_to_int_oct c : oct_digit c = true -> char_to_int c = Ok (c - 48) /\ 0 <= c - 48 < 8.
Proof.
  unfold oct_digit, char_to_int. intros H. bools.
  rewrite (proj2 (Z.leb_le 48 c)), (proj2 (Z.leb_le c 57)) by lia. cbn [andb]. split; [auto|lia].
Qed.
Lemma oct_range c : oct_digit c = true -> 48 <= c <= 55.
Proof. unfold oct_digit. intros. bools. lia. Qed.
Lemma hex_range c : hex_digit c = true -> 48 <= c <= 102.
Proof.
  unfold hex_digit. intros H. apply Bool.orb_prop in H. destruct H as [H|H]; [apply Bool.orb_prop in H; destruct H as [H|H]|]; bools; lia.
Qed.

Lemma get_app_at (p s : list Z) x : get (p ++ x :: s) (length p) = Ok x.
Proof. unfold get. rewrite nth_error_app2 by lia. rewrite Nat.sub_diag. auto. Qed.

(** The octal loop reads the digits [ds] and stops. *)
Lemma octal_loop_spec : forall ds pre next rest k i n acc,
  forallb oct_digit ds = true -> (length ds <= k)%nat -> 0 <= i ->
  i + Z.of_nat (length ds) <= n ->
  0 <= acc -> acc < 2 ^ (3 * (3 - Z.of_nat k)) -> (k <= 3)%nat ->
  0 <= next < 255 -> (length ds = k \/ oct_digit next = false) ->
  octal_loop k i n (pre ++ ds ++ next :: rest) acc (length pre)
  = Ok (fold_left (fun a d => a * 8 + (d - 48)) ds acc, (length pre + length ds)%nat).
Proof.
  induction ds as [|d ds IH]; intros pre next rest k i n acc F Lk Hi Hn A0 A1 K Hnext Hend.
  - cbn [length fold_left] in *. rewrite Nat.add_0_r. destruct k as [|k]; [reflexivity|].
    cbn [octal_loop]. destruct (i <? n) eqn:En; [|reflexivity].
    cbn [app]. rewrite get_app_at. cbn [bind]. rewrite is_octal_spec by lia. cbn [bind].
    destruct Hend as [Hend|Hend]; [discriminate|]. rewrite Hend. reflexivity.
  - cbn [forallb length] in F, Lk, Hn. apply andb_prop in F. destruct F as [Fd F].
    destruct k as [|k]; [lia|]. cbn [octal_loop].
    rewrite (proj2 (Z.ltb_lt i n)) by lia.
    cbn [app]. rewrite get_app_at. cbn [bind].
    pose proof (oct_range d Fd). rewrite is_octal_spec by lia. cbn [bind]. rewrite Fd.
    destruct (char_to_int_oct d Fd) as [-> Hd]. cbn [bind].
    assert (B : acc < 64).
    { eapply Z.lt_le_trans; [exact A1|]. change 64 with (2 ^ 6). apply Z.pow_le_mono_r; lia. }
    unfold wrap. rewrite !Z.mod_small by (change (2 ^ 32) with 4294967296; try rewrite Z.mod_small by (change (2 ^ 32) with 4294967296; lia); lia).
    replace (pre ++ d :: ds ++ next :: rest) with ((pre ++ [d]) ++ ds ++ next :: rest) by (rewrite <- app_assoc; auto).
    replace (S (length pre)) with (length (pre ++ [d])) by (rewrite app_length; cbn; lia).
    rewrite IH; auto; try lia.
    + cbn [fold_left]. rewrite app_length. cbn [length]. do 2 f_equal. lia.
    + replace (3 * (3 - Z.of_nat k)) with (3 * (3 - Z.of_nat (S k)) + 3) by lia.
      rewrite Z.pow_add_r by lia. change (2 ^ 3) with 8. lia.
    + destruct Hend as [Hend|Hend]; [left; cbn [length] in Hend; lia|right; auto].
Qed.

Lemma simple_in c v :
  In (c, v) [(39,39);(34,34);(63,63);(92,92);(97,7);(98,8);(102,12);(110,10);(114,13);(116,9);(118,11)] ->
  simple_escape c = Some v /\ 0 <= c < 255 /\ oct_digit c = false /\ (c =? 120) = false.
Proof. cbn [In]. intros H. repeat (destruct H as [H|H]; [inversion H; subst; repeat split; (reflexivity || lia)|]). contradiction. Qed.

Lemma escape_read_spec e v next rest n :
  c_escape e v -> short_hex e -> escape_ends e next -> 0 <= next < 255 -> (length e <= n)%nat ->
  escape_sequence_read (e ++ next :: rest) n = Ok (Some (v, length e)).
Proof.
  intros E S En Hn Ln.
  assert (L2 : (2 <= length e)%nat).
  { destruct E as [| ds L | ds L]; cbn [length]; try lia. }
  destruct n as [|n]; [lia|].
  destruct E as [c v I | ds L F | ds L F].
  - destruct (simple_in _ _ I) as [Es [Hc [Ho Hx]]].
    unfold escape_sequence_read. unfold get at 1 2. cbn [app nth_error bind].
    change (negb (92 =? 92)) with false. cbv iota.
    rewrite is_octal_spec by lia. cbn [bind]. rewrite Ho, Hx, Es. reflexivity.
  - destruct ds as [|d ds]; [cbn in L; lia|].
    unfold escape_sequence_read. unfold get at 1 2. cbn [app nth_error bind].
    change (negb (92 =? 92)) with false. cbv iota.
    pose proof F as F0. cbn [forallb] in F. apply andb_prop in F. destruct F as [Fd F].
    pose proof (oct_range d Fd). rewrite is_octal_spec by lia. cbn [bind]. rewrite Fd.
    assert (En' : (length ds = 2)%nat \/ oct_digit next = false).
    { revert En. unfold escape_ends. rewrite Fd.
      destruct d as [|p|p]; auto. do 7 (destruct p as [p|p|]; auto). lia. }
    pose proof (octal_loop_spec (d :: ds) [92] next rest 3 0 (Z.of_nat (Datatypes.S n)) 0 F0) as Q.
    cbn [app] in Q. change (length [92]) with 1%nat in Q. rewrite Q; auto; try lia; clear Q.
    + cbn [length] in Ln |- *. lia.
    + destruct En'; [left; cbn; lia|right; auto].
  - destruct ds as [|d [|d2 ds]]; [contradiction| |contradiction].
    unfold escape_sequence_read. unfold get at 1 2. cbn [app nth_error bind].
    change (negb (92 =? 92)) with false. cbv iota. change (is_octal 120) with (Ok false). cbn [bind].
    change (120 =? 120) with true. cbv iota.
    cbn [forallb] in F. rewrite andb_true_r in F. pose proof (hex_range d F).
    destruct (char_to_int_hex d F) as [Ei Hd].
    cbn [length] in Ln. destruct n as [|n]; [lia|].
    cbn [hex_loop]. unfold get at 1. cbn [nth_error bind].
    rewrite is_hex_spec by lia. cbn [bind]. rewrite F, Ei. cbn [bind].
    unfold get at 1. cbn [nth_error bind].
    rewrite is_hex_spec by lia. cbn [bind]. cbn [escape_ends] in En. rewrite En. cbn [bind fold_left length].
    unfold wrap. cbn [Z.mul]. rewrite Z.mul_0_l. rewrite Z.mod_0_l by lia. rewrite Z.add_0_l, Z.mod_small by (change (2 ^ 32) with 4294967296; lia).
    reflexivity.
Qed.

(** Whole literals. *)
Lemma hd_range P b v next : body_value P b v next -> 0 <= next < 256 -> 0 <= hd next b < 256.
Proof.
  destruct 1 as [|c b v next H|e x b v next E]; cbn [hd]; auto.
  destruct E; cbn [app hd]; lia.
Qed.
Lemma hd_not255 next b : Forall (fun c => c <> 255) b -> next <> 255 -> hd next b <> 255.
Proof. intros F N. destruct F; auto. Qed.

Lemma escape_loop_body (P : list Z -> Prop) b v rest :
  (forall e, P e -> short_hex e) ->
  body_value P b v 34 -> Forall (fun c => c <> 255) b ->
  forall fuel, (length b < fuel)%nat ->
  escape_loop fuel (b ++ 34 :: rest) (S (length b)) 34 STRING_DEFAULT = Ok (v, 34 :: rest, 1%nat).
Proof.
  intros HP B. remember 34 as q eqn:Eq. induction B as [next|c b v next Hc N1 N2 B IH|e x b v next E HE Hx En B IH]; intros F fuel Hf; subst next.
  - destruct fuel as [|fuel]; [lia|]. cbn [escape_loop app length]. unfold escape_char_to_buffer, get. cbn [nth_error bind].
    rewrite Z.eqb_refl. reflexivity.
  - inversion F; subst. destruct fuel as [|fuel]; [cbn in Hf; lia|]. cbn [escape_loop app length] in *.
    unfold escape_char_to_buffer. unfold get at 1. cbn [nth_error bind].
    rewrite (proj2 (Z.eqb_neq c 34)) by auto. unfold escape_sequence_read. unfold get at 1. cbn [nth_error bind].
    rewrite (proj2 (Z.eqb_neq c 92)) by auto. cbn [negb bind].
    cbn [Nat.ltb Nat.leb skipn Nat.sub].
    rewrite IH by (auto; lia). cbn [bind char_bytes app]. rewrite Z.mod_small by lia. reflexivity.
  - destruct fuel as [|fuel]; [cbn in Hf; lia|].
    apply Forall_app in F. destruct F as [Fe Fb].
    assert (L2 : (2 <= length e)%nat) by (destruct E as [| ds L | ds L]; cbn [length]; lia).
    assert (E0 : exists t, e = 92 :: t) by (destruct E; eauto). destruct E0 as [t Et].
    rewrite app_length in *. cbn [escape_loop]. unfold escape_char_to_buffer.
    assert (G : get ((e ++ b) ++ 34 :: rest) 0 = Ok 92) by (subst e; reflexivity). rewrite G. cbn [bind].
    change (92 =? 34) with false. cbv iota.
    assert (X : exists r, b ++ 34 :: rest = hd 34 b :: r) by (destruct b; cbn; eauto). destruct X as [r X].
    rewrite <- app_assoc, X.
    rewrite (escape_read_spec e x); auto.
    + cbn [bind]. rewrite (proj2 (Nat.ltb_ge _ _)) by lia. rewrite <- X.
      replace (skipn (length e) (e ++ b ++ 34 :: rest)) with (b ++ 34 :: rest)
        by (rewrite skipn_app, skipn_all, Nat.sub_diag; reflexivity).
      replace (S (length e + length b) - length e)%nat with (S (length b)) by lia.
      rewrite IH by (auto; lia). cbn [bind char_bytes app]. rewrite Z.mod_small by lia. reflexivity.
    + pose proof (hd_range _ _ _ _ B ltac:(lia)). pose proof (hd_not255 34 b Fb ltac:(lia)). lia.
    + lia.
Qed.

Lemma literal_spec (P : list Z -> Prop) b v rest :
  (forall e, P e -> short_hex e) ->
  body_value P b v 34 -> Forall (fun c => c <> 255) b ->
  escape_string_to_buffer (34 :: b ++ 34 :: rest) (length b + 2) STRING_DEFAULT = Ok v.
Proof.
  intros HP B F. replace (length b + 2)%nat with (S (S (length b))) by lia.
  unfold escape_string_to_buffer. unfold get at 1. cbn [nth_error bind].
  change (34 =? 60) with false. cbv iota. cbn [skipn].
  rewrite (escape_loop_body P b v) by (auto; lia). cbn [bind]. unfold get. cbn [nth_error bind].
  rewrite Z.eqb_refl. reflexivity.
Qed.

(** The form with complicated escapes allowed denotes the original bytes. *)
Definition c_shape (b : Z) (r : res (list Z)) : bool :=
  match r with
  | Ok [x] => (x =? b) && negb (x =? 34) && negb (x =? 92)
  | Ok [s; x] => (s =? 92) && match simple_escape x with Some v => v =? b | None => false end
                 && negb (x =? 255)
  | Ok [s; x; y; z] => (s =? 92) && octs x y z b
  | _ => false
  end.
Lemma c_shape_all : forall a b, 0 <= b < 256 -> b <> 127 ->
  c_shape b (character_to_escape_sequence b a) = true.
Proof.
  intros a b Hb N.
  pose proof (byte_forall (fun b => (b =? 127) || (c_shape b (character_to_escape_sequence b true) && c_shape b (character_to_escape_sequence b false)))
    ltac:(vm_compute; reflexivity) b Hb) as G. cbv beta in G.
  apply Bool.orb_prop in G. destruct G as [G|G]; [apply Z.eqb_eq in G; contradiction|].
  apply andb_prop in G. destruct G, a; auto.
Qed.
Lemma simple_escape_in x v : simple_escape x = Some v ->
  In (x, v) [(39,39);(34,34);(63,63);(92,92);(97,7);(98,8);(102,12);(110,10);(114,13);(116,9);(118,11)].
Proof.
  unfold simple_escape. intros H.
  repeat match type of H with
  | (if ?c =? ?k then _ else _) = _ => destruct (Z.eqb_spec c k); [subst; inversion H; subst; cbn; intuition|]
  end. discriminate.
Qed.
Lemma c_shape_body b e0 e v : 0 <= b < 256 -> b <> 255 -> c_shape b (Ok e0) = true -> body_value short_hex e v 34 ->
  Forall (fun c => c <> 255) e ->
  body_value short_hex (e0 ++ e) (b :: v) 34 /\ Forall (fun c => c <> 255) (e0 ++ e).
Proof.
  intros Hb N5 H B F. destruct e0 as [|x [|y [|z [|w [|]]]]]; try discriminate H; cbn [c_shape] in H; bools; subst.
  - split; [constructor; auto|constructor; auto].
  - destruct (simple_escape y) as [u|] eqn:Es; [|discriminate]. bools; subst u.
    pose proof (simple_escape_in _ _ Es) as I.
    split; [apply body_esc; auto|].
    + apply esc_simple; auto.
    + destruct (simple_in _ _ I) as [_ [_ [_ I4]]]. cbn. destruct y as [|p|p]; auto; do 7 (destruct p as [p|p|]; auto).
    + destruct (simple_in _ _ I) as [_ [_ [I3 I4]]]. unfold escape_ends. rewrite I3.
      destruct y as [|p|p]; auto; do 7 (destruct p as [p|p|]; auto). discriminate.
    + repeat constructor; auto; lia.
  - unfold octs in *. bools.
    assert (O3 : forallb oct_digit [y; z; w] = true) by (cbn; repeat match goal with O : oct_digit _ = true |- _ => rewrite O; clear O end; auto).
    repeat match goal with O : oct_digit _ = true |- _ => apply oct_range in O end.
    assert (V : fold_left (fun acc d => acc * 8 + (d - 48)) [y; z; w] 0 = b) by (cbn [fold_left]; lia).
    split; [|repeat constructor; auto; lia].
    apply body_esc; auto.
    + rewrite <- V. apply esc_oct; [cbn; lia|auto].
    + cbn. destruct y as [|p|p]; auto; do 7 (destruct p as [p|p|]; auto); lia.
    + unfold escape_ends. destruct y as [|p|p]; try lia. cbn [forallb] in O3. apply andb_prop in O3. destruct O3 as [-> _].
      do 7 (destruct p as [p|p|]; auto); lia.
Qed.
Lemma stringified_body l : bytes_ok l -> ~ In 127 l ->
  exists e, escape_all true l = Ok e /\ body_value short_hex e l 34 /\ Forall (fun c => c <> 255) e.
Proof.
  unfold bytes_ok, is_byte. induction l as [|b l IH]; intros Hl N.
  - exists []. repeat split; constructor.
  - inversion Hl; subst. destruct IH as [e [E [R F]]]; [auto|intro; apply N; right; auto|].
    pose proof (c_shape_all true b ltac:(auto) ltac:(intro; apply N; left; auto)) as G.
    cbn [escape_all]. destruct (character_to_escape_sequence b true) as [e0| |] eqn:E0; try discriminate G.
    rewrite E. cbn [bind]. exists (e0 ++ e). split; auto.
    destruct (Z.eq_dec b 255) as [->|N5].
    + vm_compute in E0. inversion E0; subst e0. cbn [app].
      split; [change (92 :: 51 :: 55 :: 55 :: e) with ([92; 51; 55; 55] ++ e)|repeat constructor; auto; lia].
      apply body_esc; auto; try lia; try (cbn; auto; fail).
      apply (esc_oct [51; 55; 55]); [cbn; lia|reflexivity].
    + apply c_shape_body; auto.
Qed.
Lemma stringify_reread l rest : bytes_ok l -> ~ In 127 l ->
  exists e, escape_all true l = Ok e /\
    escape_string_to_buffer (34 :: e ++ 34 :: rest) (length e + 2) STRING_DEFAULT = Ok l.
Proof.
  intros Hl N. destruct (stringified_body l Hl N) as [e [E [B F]]]. exists e. split; auto.
  apply (literal_spec short_hex); auto.
Qed.

(** The stringified form of [l] in front of any other body. *)
Lemma stringified_app l : bytes_ok l -> ~ In 127 l ->
  exists e0, escape_all true l = Ok e0 /\ forall e v, body_value short_hex e v 34 -> Forall (fun c => c <> 255) e ->
    body_value short_hex (e0 ++ e) (l ++ v) 34 /\ Forall (fun c => c <> 255) (e0 ++ e).
Proof.
  unfold bytes_ok, is_byte. induction l as [|b l IH]; intros Hl N.
  - exists []. split; [reflexivity|]. auto.
  - inversion Hl; subst. destruct IH as [e1 [E IH]]; [auto|intro; apply N; right; auto|].
    pose proof (c_shape_all true b ltac:(auto) ltac:(intro; apply N; left; auto)) as G.
    cbn [escape_all]. destruct (character_to_escape_sequence b true) as [e0| |] eqn:E0; try discriminate G.
    rewrite E. cbn [bind]. exists (e0 ++ e1). split; auto. intros e v B F. destruct (IH e v B F) as [R F1]. rewrite <- app_assoc.
    destruct (Z.eq_dec b 255) as [->|N5].
    + vm_compute in E0. inversion E0; subst e0. cbn [app].
      split; [change (92 :: 51 :: 55 :: 55 :: e1 ++ e) with ([92; 51; 55; 55] ++ e1 ++ e)|repeat constructor; auto; lia].
      apply body_esc; auto; try lia; try (cbn; auto; fail).
      apply (esc_oct [51; 55; 55]); [cbn; lia|reflexivity].
    + apply (c_shape_body b e0 (e1 ++ e) (l ++ v)); auto.
Qed.
Lemma plain_app l : Forall (fun c => 0 <= c < 255 /\ c <> 34 /\ c <> 92) l -> forall e v, body_value short_hex e v 34 -> Forall (fun c => c <> 255) e ->
  body_value short_hex (l ++ e) (l ++ v) 34 /\ Forall (fun c => c <> 255) (l ++ e).
Proof.
  induction 1 as [|c l (H1 & H2 & H3) F IH]; intros e v B Fe; [auto|]. destruct (IH e v B Fe) as [R F1]. cbn [app]. split.
  - apply body_plain; auto. lia.
  - constructor; auto. lia.
Qed.
