(** What evaluations read and write, and the range of their values. *)
From Coq Require Import Lia.
From Verif Require Import Base Bytes Arch CTypesSpec ConstFold X86 X86Proofs Codegen OpSelect PtrSpec PtrExpr PtrArith.
Ltac Zify.zify_post_hook ::= idtac.

Local Open Scope Z_scope.
Local Open Scope list_scope.

Lemma disjoint_not r s x : disjoint r s = true -> within x r -> within x s -> False.
Proof.
  unfold disjoint, within. intros H. apply Bool.orb_true_iff in H. rewrite !Z.leb_le in H. lia.
Qed.
Lemma apart_not l k r s x : apart l k = true -> In r l -> In s k -> within x r -> within x s -> False.
Proof.
  unfold apart. rewrite forallb_forall. intros H R S'. specialize (H r R). rewrite forallb_forall in H.
  exact (disjoint_not r s x (H s S')).
Qed.

Section Eval.
Variables (G : nat -> ty) (A : nat -> Z) (fields : nat -> list field) (struct_size : nat -> Z).
Variable valid_range : range -> bool.
Hypothesis structs : forall i, 0 <= struct_size i.
Notation bytes := (bytes struct_size).
Notation etype := (etype G fields).
Notation eval := (eval G A fields struct_size valid_range).
Notation typed := (typed G A fields struct_size).
Notation yields := (yields struct_size valid_range).
Notation value_of := (value_of struct_size valid_range).
Notation bit_field := (bit_field G fields).

Definition bits_ok (t : ty) (f w : Z) : Prop :=
  is_integer t /\ 0 <= f /\ 0 < w /\ f + w <= 8 * bytes t.

Definition result_ok (e : expr) (r : result) : Prop :=
  match r with
  | Void => etype e = TVoid
  | Obj a => 0 <= a < 2 ^ 64 /\ designates e /\ bit_field e = false
  | Bits a f w => 0 <= a < 2 ^ 64 /\ designates e /\ bit_field e = true /\ bits_ok (etype e) f w
  | Val v _ => 0 <= v < 256 ^ bytes (etype e)
  end.

Definition sound (m m' : memory) (R W : list range) : Prop :=
  bytes_ok m' /\ (forall x, (forall d, In d W -> ~ within x d) -> m' x = m x)
  /\ (forall d, In d (R ++ W) -> valid_range d = true).

Lemma sound_refl m : bytes_ok m -> sound m m [] [].
Proof. intros M. split; [exact M|]. split; [reflexivity|]. intros d []. Qed.
Lemma sound_trans m1 m2 m3 R1 W1 R2 W2 R W :
  sound m1 m2 R1 W1 -> sound m2 m3 R2 W2 ->
  (forall d, In d R -> In d R1 \/ In d R2) -> (forall d, In d W <-> In d W1 \/ In d W2) ->
  sound m1 m3 R W.
Proof.
  intros (B1 & F1 & V1) (B2 & F2 & V2) HR HW. split; [exact B2|]. split.
  - intros x X. rewrite F2, F1; [reflexivity| |]; intros d D; apply X, HW; tauto.
  - intros d D. apply in_app_or in D.
    assert ((In d R1 \/ In d R2) \/ (In d W1 \/ In d W2)) as Q
      by (destruct D as [D | D]; [left; exact (HR d D)|right; exact (proj1 (HW d) D)]).
    destruct Q as [[Q | Q] | [Q | Q]]; [apply V1|apply V2|apply V1|apply V2]; apply in_or_app; tauto.
Qed.

Lemma plain_bytes t : plain_value t -> 0 <= bytes t.
Proof.
  intros [H | H]; [pose proof (scalar_bytes struct_size t H); lia|].
  destruct t; try (destruct H; fail). apply structs.
Qed.

Lemma get_field_range t f w x : 0 <= bytes t -> 0 <= get_field struct_size t f w x < 256 ^ bytes t.
Proof. intros B. unfold get_field, encode. apply Z.mod_pos_bound, pow256_pos, B. Qed.

Lemma value_sound e r m v R o : 0 <= bytes (etype e) -> result_ok e r -> bytes_ok m -> value_of (etype e) r m = Some (v, R, o) ->
  0 <= v < 256 ^ bytes (etype e) /\ (forall d, In d R -> valid_range d = true).
Proof.
  intros B K M H. destruct r as [|a|a f w|v' o']; cbn [PtrSpec.value_of] in H; try discriminate.
  - destruct (valid_range _) eqn:V; [|discriminate]. injection H as <- <- <-.
    split; [apply get_range; assumption|]. intros d [<- | []]. exact V.
  - destruct (valid_range _) eqn:V; [|discriminate]. injection H as <- <- <-.
    split; [apply get_field_range; assumption|]. intros d [<- | []]. exact V.
  - injection H as <- <- <-. split; [exact K|]. intros d [].
Qed.

Lemma assign_sound t r m w m' R W : assign struct_size valid_range t r m w = Some (m', R, W) -> 0 <= bytes t -> bytes_ok m ->
  sound m m' R W.
Proof.
  intros H B M. destruct r as [|a|a f wd|v' o']; cbn [assign] in H; try discriminate;
    destruct (valid_range _) eqn:V; try discriminate; injection H as <- <- <-;
    (split; [apply put_bytes, M|split]).
  - intros x X. apply put_out; [exact B|]. apply X. left. reflexivity.
  - intros d [<- | []]. exact V.
  - intros x X. apply put_out; [exact B|]. apply X. left. reflexivity.
  - intros d [<- | [<- | []]]; exact V.
Qed.

Definition spec_ok (e : expr) : Prop := forall m r m' R W,
  typed e -> bytes_ok m -> eval e m = Some (r, m', R, W) -> sound m m' R W /\ result_ok e r.

Lemma yields_sound e m v o m' R W : spec_ok e -> typed e -> 0 <= bytes (etype e) -> bytes_ok m ->
  yields (etype e) (eval e m) = Some (v, o, m', R, W) ->
  sound m m' R W /\ 0 <= v < 256 ^ bytes (etype e).
Proof.
  intros IH T B M H. unfold PtrSpec.yields in H.
  destruct (eval e m) as [[[[r m1] R1] W1]|] eqn:E; [|discriminate].
  destruct (value_of _ _ _) as [[[v1 R2] o1]|] eqn:V; [|discriminate]. injection H as <- <- <- <- <-.
  destruct (IH _ _ _ _ _ T M E) as [S' K].
  destruct (value_sound _ _ _ _ _ _ B K (proj1 S') V) as [Q V'].
  split; [|exact Q]. destruct S' as (S1 & S2 & S3). split; [exact S1|split; [exact S2|]].
  intros d D. rewrite <- app_assoc in D. apply in_app_or in D. destruct D as [D | D].
  - apply S3, in_or_app. tauto.
  - apply in_app_or in D. destruct D as [D | D]; [exact (V' d D)|apply S3, in_or_app; tauto].
Qed.

Lemma address_some a v : address a = Some v -> v = a /\ 0 <= a < 2 ^ 64.
Proof.
  unfold address. destruct (_ && _) eqn:E; [|discriminate]. intros H. injection H as <-.
  apply andb_prop in E. destruct E as [E F]. apply Z.leb_le in E. apply Z.ltb_lt in F. auto.
Qed.
Lemma bytes_ptr t : bytes (TPtr t) = 8. Proof. reflexivity. Qed.
Lemma p64 : 256 ^ 8 = 2 ^ 64. Proof. reflexivity. Qed.

Ltac inapp := intros ?; rewrite ?in_app_iff; tauto.

Lemma eval_sound e : spec_ok e.
Proof.
  induction e as [t w|x|a IHa|a IHa|a IHa|a IHa i|sub p IHp i IHi|p IHp q IHq|t a IHa|op a IHa b IHb|op a IHa
                 |a IHa b IHb|op pf a IHa b IHb|sub pf p IHp i IHi|c IHc a IHa b IHb|a IHa b IHb];
    intros m r m' R W T M H; cbn [PtrSpec.typed] in T; cbn [PtrSpec.eval] in H.
  - injection H as <- <- <- <-. split; [apply sound_refl, M|]. exact (proj2 T).
  - injection H as <- <- <- <-. split; [apply sound_refl, M|]. split; [exact T|split; [exact I|reflexivity]].
  - destruct T as [T [t Ht]]. destruct (yields _ _) as [[[[[v o] m1] R1] W1]|] eqn:Y; [|discriminate].
    injection H as <- <- <- <-.
    assert (B : bytes (etype a) = 8) by (rewrite Ht; reflexivity).
    destruct (yields_sound _ _ _ _ _ _ _ IHa T ltac:(lia) M Y) as [S' V]. split; [exact S'|].
    rewrite B, p64 in V. split; [exact V|split; [exact I|reflexivity]].
  - destruct T as (T & D & BF). destruct (eval a m) as [[[[r1 m1] R1] W1]|] eqn:E; [|discriminate].
    destruct (IHa _ _ _ _ _ T M E) as [S' K].
    destruct r1; try discriminate. injection H as <- <- <- <-. split; [exact S'|].
    cbn [result_ok PtrSpec.etype]. rewrite bytes_ptr, p64. exact (proj1 K).
  - destruct T as (T & D & BF & n & t & Ht). destruct (eval a m) as [[[[r1 m1] R1] W1]|] eqn:E; [|discriminate].
    destruct (IHa _ _ _ _ _ T M E) as [S' K].
    destruct r1; try discriminate. injection H as <- <- <- <-. split; [exact S'|].
    cbn [result_ok PtrSpec.etype]. rewrite Ht, bytes_ptr, p64. exact (proj1 K).
  - destruct T as (T & D & BF & f & Hf & FB).
    destruct (etype a) as [| | | |sid] eqn:Ta; try discriminate.
    destruct (eval a m) as [[[[r1 m1] R1] W1]|] eqn:E; [|discriminate].
    destruct (IHa _ _ _ _ _ T M E) as [S' K]. cbn [member_of] in Hf. rewrite Hf in H.
    destruct r1 as [|a1| |]; try discriminate.
    destruct (address _) as [a2|] eqn:AD; [|discriminate].
    apply address_some in AD. destruct AD as [-> AD].
    assert (ET : etype (EDot a i) = f_type f) by (cbn [PtrSpec.etype]; rewrite Ta, Hf; reflexivity).
    assert (BT : bit_field (EDot a i) = match f_bits f with Some _ => true | None => false end)
      by (cbn [PtrSpec.bit_field]; rewrite Ta; cbn [member_of]; rewrite Hf; reflexivity).
    destruct (f_bits f) as [[first width]|]; injection H as <- <- <- <-; (split; [exact S'|]).
    + cbn [result_ok]. rewrite ET, BT. split; [exact AD|split; [exact D|split; [reflexivity|]]].
      destruct FB as (F1 & F2 & F3 & F4 & _). repeat split; assumption.
    + cbn [result_ok]. rewrite BT. split; [exact AD|split; [exact D|reflexivity]].
  - destruct T as (Tp & Ti & Hi & (t & Ht & Hb) & _).
    assert (Bp : bytes (etype p) = 8) by (rewrite Ht; reflexivity).
    assert (Bi : 0 <= bytes (etype i)) by (pose proof (scalar_bytes struct_size _ (integer_scalar _ Hi)); lia).
    destruct (yields (etype p) _) as [[[[[vp o1] m1] Rp] Wp]|] eqn:Y1; [|discriminate].
    destruct (yields_sound _ _ _ _ _ _ _ IHp Tp ltac:(lia) M Y1) as [S1 V1].
    destruct (yields (etype i) _) as [[[[[vi o2] m2] Ri] Wi]|] eqn:Y2; [|discriminate].
    destruct (yields_sound _ _ _ _ _ _ _ IHi Ti Bi (proj1 S1) Y2) as [S2 V2].
    destruct (unordered _ _ _ _); [|discriminate]. destruct (address _) as [v|] eqn:AD; [|discriminate].
    injection H as <- <- <- <-. split; [eapply (sound_trans _ _ _ _ _ _ _ _ _ S1 S2); inapp|].
    apply address_some in AD. cbn [result_ok PtrSpec.etype]. rewrite Bp, p64. destruct AD as [-> AD]. exact AD.
  - destruct T as (Tp & Tq & t & Ht & Hq & Hb).
    assert (Bp : bytes (etype p) = 8) by (rewrite Ht; reflexivity).
    assert (Bq : bytes (etype q) = 8) by (rewrite Hq; reflexivity).
    destruct (yields (etype p) _) as [[[[[vp o1] m1] Rp] Wp]|] eqn:Y1; [|discriminate].
    destruct (yields_sound _ _ _ _ _ _ _ IHp Tp ltac:(lia) M Y1) as [S1 V1].
    destruct (yields (etype q) _) as [[[[[vi o2] m2] Ri] Wi]|] eqn:Y2; [|discriminate].
    destruct (yields_sound _ _ _ _ _ _ _ IHq Tq ltac:(lia) (proj1 S1) Y2) as [S2 V2].
    destruct (_ && _) in H; [|discriminate].
    injection H as <- <- <- <-. split; [eapply (sound_trans _ _ _ _ _ _ _ _ _ S1 S2); inapp|].
    cbn [result_ok PtrSpec.etype]. unfold encode. apply Z.mod_pos_bound. reflexivity.
  - destruct T as (T & TT).
    assert (NV : t <> TVoid -> (match yields (etype a) (eval a m) with
          | Some (v, o, m, R, W) =>
              Some (if ty_eqb (etype a) t then Val v o else Val (convert struct_size (etype a) t v) Nowhere, m, R, W)
          | None => None
          end) = Some (r, m', R, W) -> sound m m' R W /\ result_ok (ECast t a) r).
    { intros NV H'.
      assert (B : 0 <= bytes (etype a)).
      { destruct TT as [-> | [[_ Sc] | [-> P]]]; [congruence| |exact (plain_bytes _ P)].
        apply plain_bytes. left. exact Sc. }
      destruct (yields _ _) as [[[[[v o] m1] R1] W1]|] eqn:Y; [|discriminate].
      destruct (yields_sound _ _ _ _ _ _ _ IHa T B M Y) as [S' V].
      destruct (ty_eqb _ _) eqn:Q; injection H' as <- <- <- <-; (split; [exact S'|]); cbn [result_ok PtrSpec.etype].
      - apply ty_eqb_eq in Q. rewrite <- Q. exact V.
      - apply convert_range. destruct TT as [-> | [[Sc _] | [-> P]]]; [congruence|exact Sc|].
        rewrite (proj2 (ty_eqb_eq _ _) eq_refl) in Q. discriminate. }
    destruct t; try (apply NV; [discriminate|exact H]).
    destruct (eval a m) as [[[[r1 m1] R1] W1]|] eqn:E; [|discriminate]. injection H as <- <- <- <-.
    split; [exact (proj1 (IHa _ _ _ _ _ T M E))|reflexivity].
  - destruct T as (Ta & Tb & Eab & O).
    assert (PP : promoted (etype a) \/ exists u, etype a = TPtr u) by tauto.
    assert (Ba : 0 <= bytes (etype a)).
    { destruct PP as [P | [u P]]; [pose proof (promoted_bytes struct_size _ P); lia|rewrite P; discriminate]. }
    assert (Bb : 0 <= bytes (etype b)) by (rewrite <- Eab; exact Ba).
    destruct (yields (etype a) _) as [[[[[va o1] m1] Ra] Wa]|] eqn:Y1; [|discriminate].
    destruct (yields_sound _ _ _ _ _ _ _ IHa Ta Ba M Y1) as [S1 V1].
    destruct (yields (etype b) _) as [[[[[vb o2] m2] Rb] Wb]|] eqn:Y2; [|discriminate].
    destruct (yields_sound _ _ _ _ _ _ _ IHb Tb Bb (proj1 S1) Y2) as [S2 V2].
    destruct (unordered _ _ _ _); [|discriminate]. destruct (operate _ _ _ _) as [v|] eqn:OP; [|discriminate].
    injection H as <- <- <- <-. split; [eapply (sound_trans _ _ _ _ _ _ _ _ _ S1 S2); inapp|].
    assert (O' : (arithmetic op /\ promoted (etype a)) \/ comparison op = true) by tauto.
    pose proof (operate_range struct_size _ _ _ _ _ PP O' OP) as Q. cbn [result_ok PtrSpec.etype].
    destruct (comparison op); exact Q.
  - destruct T as (T & P). pose proof (promoted_bytes struct_size _ P) as B.
    destruct (yields _ _) as [[[[[v o] m1] R1] W1]|] eqn:Y; [|discriminate].
    destruct (yields_sound _ _ _ _ _ _ _ IHa T ltac:(lia) M Y) as [S' V].
    destruct (operate_unary _ _ _) as [v'|] eqn:OP; [|discriminate]. injection H as <- <- <- <-.
    split; [exact S'|]. cbn [result_ok PtrSpec.etype].
    destruct op; cbn [operate_unary] in OP.
    + injection OP as <-. exact V.
    + apply fit_encode in OP. rewrite OP. unfold encode. apply Z.mod_pos_bound, pow256_pos. lia.
    + injection OP as <-. unfold encode. apply Z.mod_pos_bound, pow256_pos. lia.
  - destruct T as (Ta & Tb & D & TT).
    assert (Ba : 0 <= bytes (etype a)).
    { destruct TT as [[Q _] | [_ Q]]; [apply plain_bytes; left; exact Q|apply plain_bytes, Q]. }
    assert (Bb : 0 <= bytes (etype b)).
    { destruct TT as [[_ Q] | [Q' Q]]; [apply plain_bytes; left; exact Q|rewrite <- Q'; apply plain_bytes, Q]. }
    destruct (eval a m) as [[[[ra m1] Ra] Wa]|] eqn:E; [|discriminate].
    destruct (IHa _ _ _ _ _ Ta M E) as [S1 K1].
    destruct (yields (etype b) _) as [[[[[vb o2] m2] Rb] Wb]|] eqn:Y2; [|discriminate].
    destruct (yields_sound _ _ _ _ _ _ _ IHb Tb Bb (proj1 S1) Y2) as [S2 V2].
    set (w := if ty_eqb (etype b) (etype a) then vb else convert struct_size (etype b) (etype a) vb) in *.
    destruct (assign _ _ _ _ _ _) as [[[m3 R3] W3]|] eqn:AS; [|discriminate].
    pose proof (assign_sound _ _ _ _ _ _ _ AS Ba (proj1 S2)) as S3.
    destruct (_ && _) in H; [|discriminate]. injection H as <- <- <- <-.
    pose proof (sound_trans _ _ _ _ _ _ _ (Ra ++ Rb) (Wa ++ Wb) S1 S2 ltac:(inapp) ltac:(inapp)) as S12.
    split; [eapply (sound_trans _ _ _ _ _ _ _ _ _ S12 S3); inapp|].
    cbn [result_ok PtrSpec.etype].
    assert (Q : 0 <= w < 256 ^ bytes (etype a)).
    { unfold w. destruct (ty_eqb _ _) eqn:Q; [apply ty_eqb_eq in Q; rewrite <- Q; exact V2|].
      apply convert_range. destruct TT as [[TT _] | [TT _]]; [exact TT|].
      rewrite TT, (proj2 (ty_eqb_eq _ _) eq_refl) in Q. discriminate. }
    destruct ra; cbn [assigned]; try exact Q. cbn [PtrSpec.etype]. apply get_field_range, Ba.
  - destruct T as (Ta & Tb & D & IA & PB & O).
    pose proof (integer_scalar _ IA) as SA.
    assert (Ba : 0 <= bytes (etype a)) by (apply plain_bytes; left; exact SA).
    pose proof (promoted_bytes struct_size _ PB) as Bb.
    destruct (eval a m) as [[[[ra m1] Ra] Wa]|] eqn:E; [|discriminate].
    destruct (IHa _ _ _ _ _ Ta M E) as [S1 K1].
    destruct (yields (etype b) _) as [[[[[vb o2] m2] Rb] Wb]|] eqn:Y2; [|discriminate].
    destruct (yields_sound _ _ _ _ _ _ _ IHb Tb ltac:(lia) (proj1 S1) Y2) as [S2 V2].
    destruct (value_of _ _ _) as [[[old Rold] o3]|] eqn:VO; [|discriminate].
    destruct (value_sound _ _ _ _ _ _ Ba K1 (proj1 S2) VO) as [V3 V3'].
    destruct (operate _ _ _ _) as [v|] eqn:OP; [|discriminate].
    destruct (assign _ _ _ _ _ _) as [[[m3 R3] W3]|] eqn:AS; [|discriminate].
    pose proof (assign_sound _ _ _ _ _ _ _ AS Ba (proj1 S2)) as S3.
    destruct (_ && _) in H; [|discriminate]. injection H as <- <- <- <-.
    assert (S0 : sound m2 m2 Rold []).
    { split; [exact (proj1 S2)|]. split; [reflexivity|]. intros d Dd. rewrite app_nil_r in Dd. exact (V3' d Dd). }
    pose proof (sound_trans _ _ _ _ _ _ _ (Ra ++ Rb) (Wa ++ Wb) S1 S2 ltac:(inapp) ltac:(inapp)) as S12.
    assert (S12' : sound m m2 ((Ra ++ Rold) ++ Rb) (Wa ++ Wb)).
    { refine (sound_trans _ _ _ _ _ _ _ _ _ S12 S0 _ _); intros d0; rewrite ?in_app_iff; cbn [In]; tauto. }
    split; [eapply (sound_trans _ _ _ _ _ _ _ _ _ S12' S3); inapp|].
    cbn [result_ok PtrSpec.etype].
    pose proof (convert_range struct_size (etype b) (etype a) v SA) as Q.
    destruct pf; [exact V3|]. destruct ra; cbn [assigned]; try exact Q. cbn [PtrSpec.etype]. apply get_field_range, Ba.
  - destruct T as (Tp & Ti & Hi & (t & Ht & Hb) & _).
    assert (Bp : bytes (etype p) = 8) by (rewrite Ht; reflexivity).
    assert (Bi : 0 <= bytes (etype i)) by (pose proof (scalar_bytes struct_size _ (integer_scalar _ Hi)); lia).
    destruct (eval p m) as [[[[ra m1] Ra] Wa]|] eqn:E; [|discriminate].
    destruct (IHp _ _ _ _ _ Tp M E) as [S1 K1].
    destruct (yields (etype i) _) as [[[[[vb o2] m2] Rb] Wb]|] eqn:Y2; [|discriminate].
    destruct (yields_sound _ _ _ _ _ _ _ IHi Ti Bi (proj1 S1) Y2) as [S2 V2].
    destruct (value_of _ _ _) as [[[old Rold] o3]|] eqn:VO; [|discriminate].
    destruct (value_sound p _ _ _ _ _ ltac:(lia) K1 (proj1 S2) VO) as [V3 V3'].
    destruct (address _) as [v|] eqn:AD; [|discriminate]. apply address_some in AD.
    destruct (assign _ _ _ _ _ _) as [[[m3 R3] W3]|] eqn:AS; [|discriminate].
    pose proof (assign_sound _ _ _ _ _ _ _ AS ltac:(lia) (proj1 S2)) as S3.
    destruct (_ && _) in H; [|discriminate]. injection H as <- <- <- <-.
    assert (S0 : sound m2 m2 Rold []).
    { split; [exact (proj1 S2)|]. split; [reflexivity|]. intros d Dd. rewrite app_nil_r in Dd. exact (V3' d Dd). }
    pose proof (sound_trans _ _ _ _ _ _ _ (Ra ++ Rb) (Wa ++ Wb) S1 S2 ltac:(inapp) ltac:(inapp)) as S12.
    assert (S12' : sound m m2 ((Ra ++ Rold) ++ Rb) (Wa ++ Wb)).
    { refine (sound_trans _ _ _ _ _ _ _ _ _ S12 S0 _ _); intros d0; rewrite ?in_app_iff; cbn [In]; tauto. }
    split; [eapply (sound_trans _ _ _ _ _ _ _ _ _ S12' S3); inapp|].
    cbn [result_ok PtrSpec.etype]. rewrite Bp in *. destruct pf; [exact V3|]. rewrite p64. destruct AD as [-> AD]. exact AD.
  - destruct T as (Tc & Ta & Tb & Sc & Eab & TT).
    assert (Bc : 0 <= bytes (etype c)) by (apply plain_bytes; left; exact Sc).
    destruct (yields (etype c) _) as [[[[[vc o1] m1] Rc] Wc]|] eqn:Y1; [|discriminate].
    destruct (yields_sound _ _ _ _ _ _ _ IHc Tc Bc M Y1) as [S1 V1].
    set (arm := if vc =? 0 then b else a) in *.
    assert (IH : spec_ok arm) by (unfold arm; destruct (vc =? 0); assumption).
    assert (T' : typed arm) by (unfold arm; destruct (vc =? 0); assumption).
    assert (E' : etype arm = etype a) by (unfold arm; destruct (vc =? 0); congruence).
    assert (NV : etype a <> TVoid -> match yields (etype arm) (eval arm m1) with
              | Some (v, o, m, R, W) => Some (Val v o, m, Rc ++ R, Wc ++ W)
              | None => None
              end = Some (r, m', R, W) -> sound m m' R W /\ result_ok (ECond c a b) r).
    { intros NV H'. destruct TT as [TT | TT]; [congruence|].
      assert (B : 0 <= bytes (etype arm)) by (rewrite E'; apply plain_bytes, TT).
      destruct (yields (etype arm) _) as [[[[[v o2] m2] R2] W2]|] eqn:Y2; [|discriminate].
      destruct (yields_sound _ _ _ _ _ _ _ IH T' B (proj1 S1) Y2) as [S2 V2].
      injection H' as <- <- <- <-. split; [eapply (sound_trans _ _ _ _ _ _ _ _ _ S1 S2); inapp|].
      cbn [result_ok PtrSpec.etype]. rewrite <- E'. exact V2. }
    destruct (etype a) eqn:EA; try (apply NV; [discriminate|exact H]).
    destruct (eval arm m1) as [[[[r2 m2] R2] W2]|] eqn:E; [|discriminate].
    destruct (IH _ _ _ _ _ T' (proj1 S1) E) as [S2 _].
    injection H as <- <- <- <-. split; [eapply (sound_trans _ _ _ _ _ _ _ _ _ S1 S2); inapp|exact EA].
  - destruct T as (Ta & Tb & TT).
    destruct (eval a m) as [[[[ra m1] Ra] Wa]|] eqn:E; [|discriminate].
    destruct (IHa _ _ _ _ _ Ta M E) as [S1 K1].
    assert (NV : etype b <> TVoid -> match yields (etype b) (eval b m1) with
              | Some (v, o, m, R, W) => Some (Val v o, m, Ra ++ R, Wa ++ W)
              | None => None
              end = Some (r, m', R, W) -> sound m m' R W /\ result_ok (EComma a b) r).
    { intros NV H'. destruct TT as [TT | TT]; [congruence|].
      destruct (yields (etype b) _) as [[[[[v o2] m2] R2] W2]|] eqn:Y2; [|discriminate].
      destruct (yields_sound _ _ _ _ _ _ _ IHb Tb (plain_bytes _ TT) (proj1 S1) Y2) as [S2 V2].
      injection H' as <- <- <- <-. split; [eapply (sound_trans _ _ _ _ _ _ _ _ _ S1 S2); inapp|].
      exact V2. }
    destruct (etype b) eqn:EB; try (apply NV; [discriminate|exact H]).
    destruct (eval b m1) as [[[[r2 m2] R2] W2]|] eqn:E2; [|discriminate].
    destruct (IHb _ _ _ _ _ Tb (proj1 S1) E2) as [S2 _].
    injection H as <- <- <- <-. split; [eapply (sound_trans _ _ _ _ _ _ _ _ _ S1 S2); inapp|exact EB].
Qed.
End Eval.
