(** C86: offsetof is the distance in bytes from the start of the structure to the
    part that its designators name. *)
From Verif Require Import Base Common Arch.
From Verif Require Import OffsetOf OffsetOfSpec OffsetOfProofs.

Local Open Scope Z_scope.
Local Open Scope list_scope.

(** A part named by members and int indices has its distance as a constant, and
    every constant offsetof gives is the distance of the part named. Missing:
    indices of other integer types, and what is said of a member that is not
    there. *)
Theorem offsetof_partial : forall T x ds, wf T ->
  (forall off t, designates T (Dot x :: ds) off t -> Forall plain_index ds -> off < 2 ^ 63 ->
     offsetof T x ds = Ok (Constant off))
  /\ (forall v, offsetof T x ds = Ok (Constant v) ->
        exists off t, designates T (Dot x :: ds) off t /\ v = off mod 2 ^ 64).
Proof.
  intros T x ds W. split.
  - intros off t D P L.
    assert (P' : Forall plain_index (Dot x :: ds)) by (constructor; [exact I|exact P]).
    pose proof (designates_nonneg _ _ _ _ D W P').
    pose proof (designate_complete _ _ _ _ D W P' 0 ltac:(lia) ltac:(lia)) as E.
    rewrite (designate_as_offsetof _ _ _ _ _ E). do 2 f_equal. cbn [Z.add]. apply Z.mod_small.
    change (2 ^ 64) with (2 * 2 ^ 63). lia.
  - intros v E. destruct (offsetof_as_designate _ _ _ _ E) as (n & D & V).
    destruct n as [o t|t]; [|discriminate V]. injection V as ->.
    exists o, t. split; [|reflexivity]. pose proof (designate_sound _ _ _ _ _ W D) as H.
    replace (o - 0) with o in H by lia. exact H.
Qed.
Print Assumptions offsetof_partial.

(** The constant does not depend on how the part is found: a list of designators
    names at most one distance. *)
Corollary offsetof_unique : forall T x ds o1 t1 o2 t2, wf T -> Forall plain_index ds ->
  designates T (Dot x :: ds) o1 t1 -> designates T (Dot x :: ds) o2 t2 -> o1 < 2 ^ 63 -> o2 < 2 ^ 63 -> o1 = o2.
Proof.
  intros T x ds o1 t1 o2 t2 W P D1 D2 L1 L2. destruct (offsetof_partial T x ds W) as [H _].
  pose proof (H _ _ D1 P L1) as E1. pose proof (H _ _ D2 P L2) as E2. rewrite E1 in E2. injection E2 as E. exact E.
Qed.
Print Assumptions offsetof_unique.

(** struct { char a; union { int b; struct { short c[3]; int d : 5; } e[4][2]; }; int f[]; } *)
Definition inner : ty := Agg 12 (Cons (Some 3) (Array 3 (Scalar 2)) 0 (-1) (Cons (Some 4) (Scalar 4) 8 5 Nil)).
Definition example : ty :=
  Agg 100 (Cons (Some 1) (Scalar 1) 0 (-1)
          (Cons None (Agg 96 (Cons (Some 2) (Scalar 4) 0 (-1)
                             (Cons (Some 5) (Array 4 (Array 2 inner)) 0 (-1) Nil))) 4 (-1)
          (Cons (Some 6) (Flexible (Scalar 4)) 100 (-1) Nil))).
Definition e21c2 : list designator := [Index ST_INT 2; Index ST_CHAR 1; Dot 3; Index ST_INT 2].

Lemma example_wf : wf example.
Proof.
  cbn. repeat match goal with
              | |- _ /\ _ => split
              | |- NoDup (_ :: _) => constructor
              | |- NoDup [] => constructor
              | |- ~ _ => intros H; cbn in H; lia
              end; try lia; try exact I; reflexivity.
Qed.

Lemma e21c2_designates : designates example (Dot 5 :: e21c2) 68 (Scalar 2).
Proof.
  apply (member _ _ 5 4 (Array 4 (Array 2 inner)) e21c2 64).
  - apply next. apply (unnamed _ _ 4 _ 5 0). apply next, own.
  - apply (element 4 (Array 2 inner) ST_INT 2 _ 16).
    apply (element 2 inner ST_CHAR 1 _ 4).
    apply (member _ _ 3 0 (Array 3 (Scalar 2)) _ 4); [apply own|].
    apply (element 3 (Scalar 2) ST_INT 2 _ 0). apply whole.
Qed.

(** offsetof(example, e[2][(char)1].c[2]) is 68, and f[3] is at 112. *)
Example offsetof_example : offsetof example 5 e21c2 = Ok (Constant 68).
Proof.
  apply (proj1 (offsetof_partial example 5 e21c2 example_wf) 68 (Scalar 2) e21c2_designates).
  - unfold e21c2. repeat apply Forall_cons; try apply Forall_nil; cbn; try exact I; split; try lia;
      unfold promotes_to_int; cbn; tauto.
  - lia.
Qed.
Example offsetof_flexible : offsetof example 6 [Index ST_INT 3] = Ok (Constant 112).
Proof. vm_compute. reflexivity. Qed.

(** An index of type unsigned int (or size_t: e[sizeof x]) names a part like any
    other, and offsetof of it is no constant: it is left to the program, which
    computes with a label that stands for nothing. *)
Theorem offsetof_index_refuted : exists T x ds off t,
  wf T /\ designates T (Dot x :: ds) off t /\ off < 2 ^ 63 /\ offsetof T x ds = Ok NotConstant.
Proof.
  exists example, 6, [Index ST_UINT 3], 112, (Scalar 4).
  split; [exact example_wf|]. split; [|split; [lia|vm_compute; reflexivity]].
  apply (member _ _ 6 100 (Flexible (Scalar 4)) _ 12).
  - apply next, next, own.
  - apply (flexible (Scalar 4) ST_UINT 3 _ 0). apply whole.
Qed.
Print Assumptions offsetof_index_refuted.

(** A first member that is not there, followed by a further one, is not refused:
    the compiler reads through a null pointer. *)
Theorem offsetof_no_member_refuted : exists T x y,
  wf T /\ (forall off t ds, ~ designates T (Dot x :: ds) off t) /\ offsetof T x [Dot y] = Undef.
Proof.
  exists example, 9, 3. split; [exact example_wf|]. split; [|vm_compute; reflexivity].
  intros off t ds D. inversion D; subst.
  match goal with H : has_member _ _ _ _ |- _ => apply member_named in H; cbn in H; lia end.
Qed.
Print Assumptions offsetof_no_member_refuted.
