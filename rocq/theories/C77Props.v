(** C77: struct, union and enum tags denote the types C says. *)
From Verif Require Import Base Tags TagsSpec TagsProofs.
Local Open Scope Z_scope.
Local Open Scope list_scope.

(** Whatever the blocks, declarations and nested definitions of a program: when C gives
    every specifier a type, the compiler accepts the program, and its types are those of
    C up to their numbers: two specifiers denote one type exactly when they do in C, and
    a struct or union type is complete, with the same members, exactly when it is in C.
    Missing: the two uses that [strict] leaves out (refuted below). *)
Theorem tags_denote_types_partial : forall items dens w,
  means True nothing items dens w ->
  means False nothing items dens w /\
  exists dens' st same,
    items_run items start = Ok (dens', st) /\ one_to_one same /\ Forall2 (same_den same) dens' dens /\
    (forall k a b, same k a b -> k <> KEnum -> same_members same (members st a) (contents w b)).
Proof.
  intros items dens w M. split; [apply relaxed_means; exact M|].
  destruct (programs _ _ _ _ M _ _ at_start) as (F & ds & st & E & _ & S1 & R).
  exists ds, st, (paired F). split; auto. split; [apply (r_one R)|]. split; auto. apply (r_mem R).
Qed.
Print Assumptions tags_denote_types_partial.

(** 6.7.2.3p1, p3: after any such program, a struct or union tag that is complete in the
    innermost scope cannot be defined there again, and a tag cannot be used or defined
    with another keyword than it was declared with. *)
Theorem tags_are_not_redefined : forall items dens w,
  means True nothing items dens w ->
  (forall k n i b ms w1, inner w n = Some (k, i) -> contents w i <> None -> k <> KEnum -> denote True w b ms w1 ->
     items_run (items ++ [Declare (Define k (Some n) b)]) start = Fail) /\
  (forall k k' n i, visible n w = Some (k', i) -> k <> k' -> items_run (items ++ [Declare (Mention k n)]) start = Fail) /\
  (forall k k' n i b ms w1, inner w n = Some (k', i) -> k <> k' -> denote True w b ms w1 ->
     items_run (items ++ [Declare (Define k (Some n) b)]) start = Fail).
Proof.
  intros items dens w M. destruct (programs _ _ _ _ M _ _ at_start) as (F & ds & st & E & _ & S1 & R).
  split; [|split].
  - intros k n i b ms w1 I C K D. rewrite items_app, E. cbn [bind items_run item_run spec_type].
    destruct (proj2 follows _ _ _ _ D _ _ _ _ R) as (F1 & d1 & st1 & -> & I1 & S2 & R1); [intros m []|]. cbn [bind].
    pose proof (proj2 (proj2 (proj2 (frame True) _ _ _ _ D)) _ _ I) as I2.
    pose proof (kept True) as KP. destruct (contents w i) as [cs|] eqn:CE; [|congruence].
    pose proof (proj2 KP _ _ _ _ D i cs CE) as (cs' & C').
    destruct (here _ _ _ _ _ n R1) as [H|[[] _]]. rewrite I2 in H. destruct (get_here n st1) as [[k1 a]|]; [|contradiction]. destruct H as [-> PA].
    rewrite kind_eqb_refl. cbn [negb]. pose proof (r_mem R1 _ _ _ PA K) as X. rewrite C' in X. destruct (members st1 a); [reflexivity|contradiction].
  - intros k k' n i V NE. rewrite items_app, E. cbn [bind items_run item_run spec_type].
    destruct (anywhere _ _ _ _ _ n R) as [H|(_ & _ & k1 & j & HI & HV & HU & HC)]; [intros []| |].
    + rewrite V in H. destruct (get n st) as [[k1 a]|]; [|contradiction]. destruct H as [-> PA]. rewrite kind_neq by auto. reflexivity.
    + destruct (here _ _ _ _ _ n R) as [H|[[] _]]. rewrite HI in H. destruct (get_here n st) as [[? ?]|]; [|contradiction]. destruct H as [_ H]. destruct (HU _ _ H).
  - intros k k' n i b ms w1 I NE D. rewrite items_app, E. cbn [bind items_run item_run spec_type].
    destruct (proj2 follows _ _ _ _ D _ _ _ _ R) as (F1 & d1 & st1 & -> & I1 & S2 & R1); [intros m []|]. cbn [bind].
    pose proof (proj2 (proj2 (proj2 (frame True) _ _ _ _ D)) _ _ I) as I2.
    destruct (here _ _ _ _ _ n R1) as [H|[[] _]]. rewrite I2 in H. destruct (get_here n st1) as [[k1 a]|]; [|contradiction]. destruct H as [-> PA].
    rewrite kind_neq by auto. reflexivity.
Qed.
Print Assumptions tags_are_not_redefined.

(** The tags s and t. *)
Definition s : name := [115].
Definition t : name := [116].

(** [struct s { int x; }; { struct s { struct s *next; } ... }]: in C the member of the
    inner type points to the inner type; the compiler takes the outer one. *)
Theorem inner_self_reference_refuted : exists items dens w,
  means False nothing items dens w /\
  ~ exists dens' st same, items_run items start = Ok (dens', st) /\ one_to_one same /\ Forall2 (same_den same) dens' dens /\
      (forall k a b, same k a b -> k <> KEnum -> same_members same (members st a) (contents w b)).
Proof.
  exists [Declare (Define KStruct (Some s) Nil); Open; Declare (Define KStruct (Some s) (Cons (Mention KStruct s) Nil))]. eexists. eexists. split.
  - eapply m_declare; [eapply d_define; [reflexivity|intros []|apply d_nil|reflexivity]|]. apply m_open.
    eapply m_declare; [|apply m_nil]. eapply d_define; [reflexivity|intros []| |].
    + eapply d_cons; [|apply d_nil]. apply d_visible. vm_compute. reflexivity.
    + reflexivity.
  - cbn [count declare fill nothing den_of]. intros (dens' & st & same & E & O1 & S1 & MM). vm_compute in E. injection E as <- <-.
    inversion S1 as [|x1 y1 l1 l2 H1 H2]; subst. inversion H2 as [|x2 y2 l3 l4 H3 H4]; subst. inversion H1; subst. inversion H3; subst.
    match goal with X : same KStruct 1%nat 1%nat |- _ => pose proof (MM _ _ _ X ltac:(discriminate)) as M1 end.
    vm_compute in M1. inversion M1 as [|x3 y3 l5 l6 J5 J6]; subst. inversion J5; subst.
    match goal with X : same KStruct 0%nat 1%nat, Y : same KStruct 1%nat 1%nat |- _ => destruct (proj2 O1 _ _ _ _ _ X Y) as [_ Z]; discriminate Z end.
Qed.
Print Assumptions inner_self_reference_refuted.

(** [struct s { ... }; { struct s; struct s *p; ... }]: in C [struct s;] declares a new
    type (6.7.2.3p7); for the compiler it is the outer one. *)
Theorem tag_alone_refuted : exists items dens w,
  means False nothing items dens w /\
  ~ exists dens' st same, items_run items start = Ok (dens', st) /\ one_to_one same /\ Forall2 (same_den same) dens' dens.
Proof.
  exists [Declare (Define KStruct (Some s) Nil); Open; Alone KStruct s]. eexists. eexists. split.
  - eapply m_declare; [eapply d_define; [reflexivity|intros []|apply d_nil|reflexivity]|]. apply m_open.
    apply m_alone_new; [discriminate|reflexivity|intros []|apply m_nil].
  - cbn [count declare fill nothing den_of]. intros (dens' & st & same & E & O1 & S1). vm_compute in E. injection E as <- <-.
    inversion S1 as [|x1 y1 l1 l2 H1 H2]; subst. inversion H2 as [|x2 y2 l3 l4 H3 H4]; subst. inversion H1; subst. inversion H3; subst.
    match goal with X : same KStruct 0%nat 0%nat, Y : same KStruct 0%nat 1%nat |- _ => destruct (proj1 O1 _ _ _ _ _ X Y) as [_ Z]; discriminate Z end.
Qed.
Print Assumptions tag_alone_refuted.

(** An enumeration can be defined twice in one scope (6.7.2.3p1 forbids it). *)
Theorem enumerations_are_redefined_refuted : exists items w n i,
  means False nothing items [DInt] w /\ inner w n = Some (KEnum, i) /\ contents w i <> None /\
  exists r, items_run (items ++ [Declare (Define KEnum (Some n) Nil)]) start = Ok r.
Proof.
  exists [Declare (Define KEnum (Some s) Nil)]. eexists. exists s, 0%nat. split; [|split; [|split]].
  - eapply (m_declare False _ _ _ DInt); [|apply m_nil]. apply (d_define False nothing KEnum s Nil [] (declare s KEnum nothing)); [reflexivity|intros []|apply d_nil|reflexivity].
  - reflexivity.
  - vm_compute. discriminate.
  - eexists. vm_compute. reflexivity.
Qed.
Print Assumptions enumerations_are_redefined_refuted.

(** [struct s { struct s *next; union { struct t *a; } u; } v; { struct t { } x; struct s y; } struct t z;] *)
Definition sample : list item :=
  [ Declare (Define KStruct (Some s) (Cons (Mention KStruct s) (Cons (Define KUnion None (Cons (Mention KStruct t) Nil)) Nil)));
    Open; Declare (Define KStruct (Some t) Nil); Declare (Mention KStruct s); Close; Alone KStruct t; Declare (Define KStruct (Some t) (Cons (Mention KStruct t) Nil)) ].
Lemma define_new w k n b ms w1 d : inner w n = None -> (True -> seen n (outer w) <> None -> ~ mentions_all n b) ->
  denote True (declare n k w) b ms w1 -> contents w1 (count w) = None -> d = den_of k (count w) -> denotes True w (Define k (Some n) b) d (fill (count w) ms w1).
Proof. intros H1 H2 H3 H4 ->. apply d_define; auto. Qed.
Example C77_sample : exists w, means True nothing sample [DTag KStruct 0; DTag KStruct 3; DTag KStruct 0; DTag KStruct 2; DTag KStruct 2] w /\
  contents w 0 = Some [DTag KStruct 0; DTag KUnion 1] /\ contents w 2 = Some [DTag KStruct 2].
Proof.
  eexists. split.
  - unfold sample. eapply (m_declare True _ _ _ (DTag KStruct 0)).
    { eapply (d_define True nothing KStruct s); [reflexivity|intros _ X; destruct (X eq_refl)| |].
      - eapply d_cons; [apply (d_visible True _ KStruct s 0); vm_compute; reflexivity|]. eapply d_cons; [|apply d_nil].
        eapply d_anonymous. eapply d_cons; [|apply d_nil]. apply d_new; [vm_compute; reflexivity|discriminate].
      - vm_compute. reflexivity. }
    apply m_open.
    eapply (m_declare True _ _ _ (DTag KStruct 3)).
    { eapply define_new; [reflexivity|intros _ _ []|apply d_nil|vm_compute; reflexivity|vm_compute; reflexivity]. }
    eapply (m_declare True _ _ _ (DTag KStruct 0)).
    { apply (d_visible True _ KStruct s 0). vm_compute. reflexivity. }
    eapply m_close; [reflexivity|].
    eapply (m_alone_here True _ KStruct t 2); [discriminate|vm_compute; reflexivity|].
    eapply (m_declare True _ _ _ (DTag KStruct 2)); [|apply m_nil].
    eapply (d_complete True _ KStruct t _ 2); [vm_compute; reflexivity|vm_compute; reflexivity| |].
    + eapply d_cons; [|apply d_nil]. apply (d_visible True _ KStruct t 2). vm_compute. reflexivity.
    + vm_compute. reflexivity.
  - split; vm_compute; reflexivity.
Qed.
Example C77_run : exists st, items_run sample start = Ok ([DTag KStruct 0; DTag KStruct 3; DTag KStruct 0; DTag KStruct 1; DTag KStruct 1], st) /\
  members st 0 = Some [DTag KStruct 0; DTag KUnion 2] /\ members st 1 = Some [DTag KStruct 1].
Proof. eexists. split; vm_compute; [reflexivity|split; reflexivity]. Qed.
Example C77_twice : items_run (sample ++ [Declare (Define KStruct (Some s) Nil)]) start = Fail /\ items_run (sample ++ [Declare (Mention KUnion s)]) start = Fail.
Proof. split; vm_compute; reflexivity. Qed.
