(** Proofs for C81. *)
From Verif Require Import Base Arch ExprType ExprTypeProofs Redecl RedeclSpec.
Local Open Scope list_scope.

Scheme compatible_mut := Induction for compatible Sort Prop with parameters_mut := Induction for parameters Sort Prop.
Scheme closed_mut := Induction for closed Sort Prop with all_closed_mut := Induction for all_closed Sort Prop.
Lemma unq_closed p : is_const p = false -> unq p = p.
Proof. destruct p; cbn; intros H; try reflexivity; rewrite H; reflexivity. Qed.
(** Compatible types with nothing open are the same type. *)
Lemma closed_same : forall a b c, compatible a b c -> closed a -> closed b -> b = a /\ c = a.
Proof.
  apply (compatible_mut (fun a b c _ => closed a -> closed b -> b = a /\ c = a) (fun ps qs vs _ => all_closed ps -> all_closed qs -> qs = ps /\ vs = ps)); intros.
  - split; reflexivity.
  - split; reflexivity.
  - inversion H0; inversion H1; subst. destruct H as [-> ->]; auto.
  - inversion H0; inversion H1; subst. destruct H as [-> ->]; auto.
  - inversion H1.
  - inversion H0.
  - inversion H1; inversion H2; subst. destruct H as [-> ->]; auto. destruct H0 as [-> ->]; auto.
  - inversion H1 as [| | | |? ? ? [P|P]]; congruence.
  - inversion H0 as [| | | |? ? ? [P|P]]; congruence.
  - inversion H0 as [| | | |? ? ? [P|P]]; congruence.
  - split; reflexivity.
  - inversion H1 as [|? ? C1 C2 C3]; inversion H2 as [|? ? D1 D2 D3]; subst. rewrite (unq_closed p C2), (unq_closed q D2) in H. destruct H as [-> ->]; auto. destruct H0 as [-> ->]; auto.
Qed.
Lemma closed_self : forall t, closed t -> compatible t t t.
Proof.
  apply (closed_mut (fun t _ => compatible t t t) (fun ps _ => parameters ps ps ps)); intros; try (constructor; assumption).
  constructor; [|assumption]. rewrite (unq_closed p e). exact H.
Qed.
Lemma composite_same_type a : composite a a = Some a.
Proof. unfold composite. rewrite ty_eqb_refl. reflexivity. Qed.
Lemma composite_flat a b c : flat a -> flat b -> compatible a b c -> composite b a = Some c /\ flat c.
Proof.
  intros FA FB K. destruct FA as [a A|a A|r A]; destruct FB as [b B|b B|q B].
  - destruct (closed_same _ _ _ K A B) as [-> ->]. split; [apply composite_same_type|apply fl_closed; exact A].
  - inversion K; subst; [inversion A|]. inversion A; subst. destruct (closed_same t b v) as [-> ->]; auto. split; [reflexivity|]. apply fl_closed. exact A.
  - inversion K; subst.
    + exfalso. inversion A as [| | | |? ? ? [P|P]]; subst; [|discriminate]. match goal with X : parameters _ [] _ |- _ => inversion X; subst end. congruence.
    + inversion A; subst. destruct (closed_same r q v) as [-> ->]; auto. split; [|apply fl_closed; exact A]. unfold composite.
      destruct (ty_eqb (Fn r [] true) (Fn r ps false)) eqn:E; [apply ty_eqb_spec in E; discriminate|]. reflexivity.
    + exfalso. inversion A as [| | | |? ? ? [P|P]]; congruence.
  - inversion K; subst; [inversion B|]. inversion B; subst. destruct (closed_same a u v) as [-> ->]; auto. split; [reflexivity|]. apply fl_closed. exact B.
  - inversion K; subst. destruct (closed_same a b v) as [-> ->]; auto. split; [apply composite_same_type|apply fl_array; exact A].
  - inversion K.
  - inversion K; subst.
    + exfalso. match goal with X : prototype [] true |- _ => destruct X; congruence end.
    + inversion B; subst. destruct (closed_same r q v) as [-> ->]; auto. split; [|apply fl_closed; exact B]. unfold composite.
      destruct (ty_eqb (Fn r qs false) (Fn r [] true)) eqn:E; [apply ty_eqb_spec in E; discriminate|]. cbn. reflexivity.
    + exfalso. inversion B as [| | | |? ? ? [P|P]]; congruence.
  - inversion K.
  - inversion K; subst.
    + exfalso. match goal with X : prototype [] true |- _ => destruct X; congruence end.
    + destruct (closed_same r q v) as [-> ->]; auto. split; [apply composite_same_type|apply fl_function; exact A].
Qed.
(** With nothing open, a conflict is refused. *)
Lemma composite_closed a b c : closed a -> closed b -> composite b a = Some c -> compatible a b c.
Proof.
  intros A B H. unfold composite in H. destruct (ty_eqb b a) eqn:E; [apply ty_eqb_spec in E; subst; injection H as <-; apply closed_self; exact A|].
  destruct b as [| |[]|q qs w|], a as [| |[]|r ps v|]; try discriminate; [inversion A|inversion B|].
  destruct (w && match qs with [] => true | _ => false end) eqn:Q.
  - exfalso. destruct w, qs; try discriminate. inversion B as [| | | |? ? ? [P|P]]; congruence.
  - destruct (v && match ps with [] => true | _ => false end) eqn:R; [|discriminate]. exfalso. destruct v, ps; try discriminate. inversion A as [| | | |? ? ? [P|P]]; congruence.
Qed.

Lemma declare_app p a b : declare_from p (a ++ b) = let* (t, e) := declare_from p a in let* (u, e') := declare_from t b in Ok (u, e ++ e').
Proof.
  revert p. induction a as [|d a IH]; intros p; cbn [app declare_from bind].
  - destruct (declare_from p b) as [[u e]| |]; reflexivity.
  - destruct (declare_one p d) as [[t e]| |]; cbn [bind]; [|reflexivity|reflexivity]. rewrite IH. destruct (declare_from (Some t) a) as [[u e']| |]; cbn [bind]; [|reflexivity|reflexivity].
    destruct (declare_from u b) as [[z e'']| |]; cbn [bind]; [rewrite app_assoc; reflexivity|reflexivity|reflexivity].
Qed.
