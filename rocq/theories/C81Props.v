(** C81: repeated declarations. *)
From Verif Require Import Base Arch ExprType ExprTypeProofs Redecl RedeclSpec RedeclProofs.
Local Open Scope list_scope.

Lemma agree_nonempty l c : agree l c -> l <> [].
Proof. intros [t|l' t c0 c' _ _]; [discriminate|]. destruct l'; discriminate. Qed.
Lemma closed_definition a t c : closed t -> composite t a = Some c -> c = t.
Proof.
  intros C H. unfold composite in H. destruct (ty_eqb t a); [congruence|].
  destruct t as [| |[]|q qs w|], a as [| |[]|r ps v|]; try discriminate; try congruence; [inversion C|].
  destruct (w && match qs with [] => true | _ => false end) eqn:Q; [|destruct (v && _); congruence].
  exfalso. destruct w, qs; try discriminate. inversion C as [| | | |? ? ? [P|P]]; congruence.
Qed.
Definition exports (s0 : bool) (ds : list decl) : list bool := flat_map (fun x => match x with Defined _ _ => [negb s0] | Declared _ _ => [] end) ds.

(** Declarations that agree are accepted, with the composite type, and a definition is
    exported unless the function was first declared static. Missing: types with something
    left open inside them, definitions without prototype, and definitions that do not
    repeat the static of the first declaration. *)
Theorem redeclarations_partial : forall d0 r c, let ds := d0 :: r in
  Forall (fun d => flat (type_of d)) ds -> Forall (fun d => match d with Defined t s => closed t /\ s = says_static d0 | Declared _ _ => True end) ds ->
  agree (map type_of ds) c -> declarations ds = Ok (Some c, exported ds).
Proof.
  intros d0 r c ds FL DF AG. change (exported ds) with (exports (says_static d0) ds). unfold declarations. revert FL DF AG. generalize (says_static d0) as s0. clearbody ds. clear d0 r.
  intros s0 FL DF AG. remember (map type_of ds) as ts eqn:E.
  enough (G : declare_from None ds = Ok (Some c, exports s0 ds) /\ flat c) by exact (proj1 G).
  revert ds E FL DF. induction AG as [t|l t c c' AG IH K]; intros ds E FL DF.
  - destruct ds as [|d [|]]; try discriminate. injection E as ->. apply Forall_inv in FL, DF. destruct d as [t s|t s]; cbn; [auto|]. destruct DF as [_ ->]. auto.
  - symmetry in E. apply map_eq_app in E. destruct E as (ds' & dl & -> & E1 & E2). destruct dl as [|d [|]]; try discriminate. injection E2 as E2.
    apply Forall_app in FL, DF. destruct FL as [FL FL'], DF as [DF DF']. apply Forall_inv in FL', DF'. destruct (IH ds' (eq_sym E1) FL DF) as [R Fc].
    rewrite E2 in FL'. destruct (composite_flat _ _ _ Fc FL' K) as [C Fc']. rewrite declare_app, R. cbn [bind declare_from]. split; [|exact Fc'].
    unfold exports. rewrite flat_map_app. cbn [flat_map]. rewrite app_nil_r. destruct d as [u s|u s]; cbn [type_of] in E2; subst u; cbn [declare_one].
    + rewrite C. reflexivity.
    + destruct DF' as [Cl ->]. cbn [bind]. rewrite (closed_definition _ _ _ Cl C). reflexivity.
Qed.
Print Assumptions redeclarations_partial.

(** With nothing left open, declarations of which two conflict are refused, and only
    those. *)
Theorem conflicts_are_refused_partial : forall l, l <> [] -> Forall closed (map fst l) ->
  let ds := map (fun p => Declared (fst p) (snd p)) l in
  (exists c, agree (map fst l) c /\ declarations ds = Ok (Some c, [])) \/ (forall c, ~ agree (map fst l) c) /\ declarations ds = Fail.
Proof.
  intros l. induction l as [|[t s] l IH] using rev_ind; intros N F ds; [congruence|]. subst ds.
  destruct l as [|x l']; [left; exists t; split; [constructor|reflexivity]|]. remember (x :: l') as l eqn:El.
  assert (NL : l <> []) by (subst l; discriminate). clear El x l'. rewrite map_app in F. apply Forall_app in F. destruct F as [F Ft]. apply Forall_inv in Ft. cbn [fst] in Ft.
  rewrite !map_app. cbn [map fst snd]. unfold declarations in *. rewrite declare_app.
  assert (U : forall c, agree (map fst l ++ [t]) c -> exists c0, agree (map fst l) c0 /\ compatible c0 t c).
  { intros c A. inversion A as [t' E|l0 t0 c0 c1 A0 K E]; subst.
    - exfalso. apply NL. destruct l as [|y l]; [reflexivity|]. destruct l; discriminate.
    - apply app_inj_tail in E. destruct E as [-> ->]. exists c0. auto. }
  assert (CL : forall ts c, agree ts c -> Forall closed ts -> closed c).
  { intros ts c A. induction A as [t'|l0 t' c0 c' A0 IHA K]; intros FC; [exact (Forall_inv FC)|]. apply Forall_app in FC. destruct FC as [FC Ft']. apply Forall_inv in Ft'.
    destruct (closed_same _ _ _ K (IHA FC) Ft') as [_ ->]. exact (IHA FC). }
  assert (HD : forall ts c, agree ts c -> Forall closed ts -> hd_error ts = Some c).
  { intros ts c A. induction A as [t'|l0 t' c0 c' A0 IHA K]; intros FC; [reflexivity|]. apply Forall_app in FC. destruct FC as [FC Ft']. apply Forall_inv in Ft'.
    destruct (closed_same _ _ _ K (CL _ _ A0 FC) Ft') as [_ ->]. rewrite <- (IHA FC). destruct l0; [exfalso; exact (agree_nonempty _ _ A0 eq_refl)|reflexivity]. }
  destruct (IH NL F) as [(c & A & R)|(NA & R)]; rewrite R; cbn [bind declare_from declare_one].
  - destruct (composite t c) as [c'|] eqn:C; cbn [bind app].
    + left. exists c'. split; [|reflexivity]. apply (ag_more _ _ c); [exact A|]. apply composite_closed; [exact (CL _ _ A F)|exact Ft|exact C].
    + right. split; [|reflexivity]. intros c'' A''. destruct (U _ A'') as (c0 & A0 & K). destruct (composite_flat c0 t c'' (fl_closed _ (CL _ _ A0 F)) (fl_closed _ Ft) K) as [C' _].
      
      assert (X : c0 = c) by (pose proof (HD _ _ A F); pose proof (HD _ _ A0 F); congruence). subst c0. congruence.
  - right. split; [|reflexivity]. intros c A. destruct (U _ A) as (c0 & A0 & _). exact (NA _ A0).
Qed.
Print Assumptions conflicts_are_refused_partial.

(** ** Where it fails *)
Definition int := Simple false ST_INT.
Definition char := Simple false ST_CHAR.
Definition disagree (ts : list ty) : Prop := forall c, ~ agree ts c.
Lemma two_disagree a b : (forall c, ~ compatible a b c) -> disagree [a; b].
Proof.
  intros N c A. inversion A as [|l t c0 c' A0 K E]; subst. change [a; b] with ([a] ++ [b]) in E. apply app_inj_tail in E. destruct E as [-> ->].
  inversion A0 as [|l t c1 c2 A1 K1 E1]; subst; [exact (N _ K)|]. destruct l as [|? [|]]; try discriminate. exact (agree_nonempty _ _ A1 eq_refl).
Qed.
(** extern int x[]; char x[3];  and  int f(); char f(int);  and  int f(); int f(float);
    are accepted. *)
Theorem conflicts_accepted_refuted :
  (disagree [Arr None int; Arr (Some 3%Z) char] /\ declarations [Declared (Arr None int) false; Declared (Arr (Some 3%Z) char) false] = Ok (Some (Arr (Some 3%Z) char), [])) /\
  (disagree [Fn int [] true; Fn char [int] false] /\ declarations [Declared (Fn int [] true) false; Declared (Fn char [int] false) false] = Ok (Some (Fn char [int] false), [])) /\
  (disagree [Fn int [] true; Fn int [Simple false ST_FLOAT] false] /\
   declarations [Declared (Fn int [] true) false; Declared (Fn int [Simple false ST_FLOAT] false) false] = Ok (Some (Fn int [Simple false ST_FLOAT] false), [])).
Proof.
  split; [|split]; (split; [|reflexivity]); apply two_disagree; intros c K; inversion K; subst.
  - match goal with X : compatible int char _ |- _ => inversion X end.
  - match goal with X : compatible int char _ |- _ => inversion X end.
  - match goal with X : Forall promoted_already _ |- _ => inversion X; subst; assumption end.
Qed.
Print Assumptions conflicts_accepted_refuted.
(** extern int ( *p)[]; int ( *p)[3];  and  int f(int); int f(const int);  are refused. *)
Theorem compatible_refused_refuted :
  (agree [Ptr false (Arr None int); Ptr false (Arr (Some 3%Z) int)] (Ptr false (Arr (Some 3%Z) int)) /\
   declarations [Declared (Ptr false (Arr None int)) false; Declared (Ptr false (Arr (Some 3%Z) int)) false] = Fail) /\
  (agree [Fn int [int] false; Fn int [Simple true ST_INT] false] (Fn int [int] false) /\
   declarations [Declared (Fn int [int] false) false; Declared (Fn int [Simple true ST_INT] false) false] = Fail).
Proof.
  split; (split; [|reflexivity]).
  - apply (ag_more [_] _ _ _ (ag_one _)). constructor. constructor. constructor.
  - apply (ag_more [_] _ _ _ (ag_one _)). apply k_function; [left; discriminate|constructor|]. constructor; [constructor|constructor].
Qed.
Print Assumptions compatible_refused_refuted.
(** A function definition is not compared with earlier declarations: int f(int);
    char f(void) { ... } is accepted; and static int f(void); int f(void) { ... } exports
    f. *)
Theorem definitions_refuted :
  (disagree [Fn int [int] false; Fn char [] false] /\ declarations [Declared (Fn int [int] false) false; Defined (Fn char [] false) false] = Ok (Some (Fn char [] false), [true])) /\
  (let ds := [Declared (Fn int [] false) true; Defined (Fn int [] false) false] in
   agree (map type_of ds) (Fn int [] false) /\ exported ds = [false] /\ declarations ds = Ok (Some (Fn int [] false), [true])).
Proof.
  split; [split; [|reflexivity]|split; [|split; reflexivity]].
  - apply two_disagree. intros c K. inversion K; subst. match goal with X : parameters _ [] _ |- _ => inversion X end.
  - apply (ag_more [_] _ _ _ (ag_one _)). apply k_function; [right; reflexivity|constructor|constructor].
Qed.
Print Assumptions definitions_refuted.

(** The hypotheses are met: extern int a[]; int a[3]; extern int a[];  and  static int g();
    static int g(int, char * );  static int g(int, char * ) { ... } *)
Example C81_array : let ds := [Declared (Arr None int) false; Declared (Arr (Some 3%Z) int) false; Declared (Arr None int) false] in
  Forall (fun d => flat (type_of d)) ds /\ agree (map type_of ds) (Arr (Some 3%Z) int) /\ declarations ds = Ok (Some (Arr (Some 3%Z) int), []).
Proof.
  assert (C : closed int) by constructor. split; [|split; [|reflexivity]].
  - constructor; [apply fl_array; exact C|]. constructor; [apply fl_closed; constructor; exact C|]. constructor; [apply fl_array; exact C|constructor].
  - apply (ag_more [_; _] _ (Arr (Some 3%Z) int)); [apply (ag_more [_] _ _ _ (ag_one _))|]; constructor; constructor.
Qed.
Definition gt := Fn int [int; Ptr false char] false.
Example C81_function : let ds := [Declared (Fn int [] true) true; Declared gt true; Defined gt true] in
  Forall (fun d => flat (type_of d)) ds /\ agree (map type_of ds) gt /\ declarations ds = Ok (Some gt, [false]) /\ exported ds = [false].
Proof.
  assert (C : closed int) by constructor. assert (G : closed gt).
  { constructor; [left; discriminate|exact C|]. constructor; [exact C|reflexivity|]. constructor; [constructor; constructor|reflexivity|constructor]. }
  split; [|split; [|split; reflexivity]].
  - constructor; [apply fl_function; exact C|]. constructor; [apply fl_closed; exact G|]. constructor; [apply fl_closed; exact G|constructor].
  - apply (ag_more [_; _] _ gt); [apply (ag_more [_] _ _ _ (ag_one _))|apply closed_self; exact G].
    apply k_function_right; [constructor|]. repeat constructor.
Qed.
