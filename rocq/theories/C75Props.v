(** C75: expressions over objects in memory. What an expression made of variables,
    pointers, arrays, structures, bit-fields, operators, conversions, assignments,
    conditional and comma expressions reads, writes and yields in C11 (PtrSpec.v) is
    what the instructions it is translated into read, write and yield. *)
From Coq Require Import Lia.
From Verif Require Import Base Arch CTypesSpec ConstFold X86 Codegen OpSelect PtrSpec PtrExpr PtrArith PtrEval PtrParts.
Ltac Zify.zify_post_hook ::= idtac.

Local Open Scope Z_scope.
Local Open Scope list_scope.

(** The memory the code allocates for itself: each piece lies in the address space
    and apart from the other pieces and from all objects. *)
Definition in_temporary (tmp : nat -> Z) (code : list ins) (x : Z) : Prop :=
  exists d k, In (d, k) (flat_map allocated code) /\ within x (tmp d, k).
Definition temporaries_apart (valid_range : range -> bool) (tmp : nat -> Z) (code : list ins) : Prop :=
  (forall d k, In (d, k) (flat_map allocated code) -> 0 <= tmp d < 2 ^ 64)
  /\ (forall d k d' k' x, In (d, k) (flat_map allocated code) -> In (d', k') (flat_map allocated code) ->
        within x (tmp d, k) -> within x (tmp d', k') -> d = d')
  /\ (forall r x, valid_range r = true -> within x r -> ~ in_temporary tmp code x).

(** The expression is translated; and when C gives it a meaning, its code runs, leaves
    in the objects what C says, and what stands for its result designates the object
    C says and reads as the value C says. *)
Definition translated_right (G : nat -> ty) (A : nat -> Z) (fields : nat -> list field) (struct_size : nat -> Z)
    (valid_range : range -> bool) (ptr : nat -> node) (start : nat) (u : use) (e : expr) : Prop :=
  forall n, (start <= n)%nat ->
  exists ee code n', evaluate G fields struct_size ptr e n = Ok (ee, code, n') /\ data_type ee = etype G fields e /\
  forall tmp s m r m' R W,
    temporaries_apart valid_range tmp code ->
    (forall x, env s (id (ptr x)) = A x) ->
    (forall x, mem_of s x = m x) -> (forall x, 0 <= m x < 256) ->
    eval G A fields struct_size valid_range e m = Some (r, m', R, W) ->
    exists s', steps tmp code s = Ok s'
    /\ (forall x, ~ in_temporary tmp code x -> mem_of s' x = m' x)
    /\ (u <> Unused ->
        (forall a, r = Obj a -> exists p, kind_of ee = EE_POINTER p /\ word s' p = a)
        /\ (forall a first width, r = Bits a first width ->
              exists p, kind_of ee = EE_BITFIELD_POINTER p first width (signed_type (etype G fields e)) /\ word s' p = a)
        /\ (forall v R' o, value_of struct_size valid_range (etype G fields e) r m' = Some (v, R', o) ->
              0 <= bytes struct_size (etype G fields e) ->
              exists x c k s2, to_var struct_size ee n' = Ok (x, c, k) /\ steps tmp c s' = Ok s2 /\ mem_of s2 = mem_of s'
                /\ word s2 x = v /\ (u = Value -> size x = bytes struct_size (etype G fields e)))).

(** Who owns a byte of the temporaries. *)
Definition owner_of (tmp : nat -> Z) (l : list (nat * Z)) (x : Z) : option nat :=
  option_map fst (find (fun p => (tmp (fst p) <=? x) && (x <? tmp (fst p) + snd p)) l).
Lemma owner_none tmp code x : owner_of tmp (flat_map allocated code) x = None <-> ~ in_temporary tmp code x.
Proof.
  unfold owner_of, in_temporary, within. cbn [fst snd]. generalize (flat_map allocated code) as l. intros l.
  destruct (find _ l) as [[d k]|] eqn:F; cbn [option_map]; split; try discriminate.
  - intros H. exfalso. apply H. apply find_some in F. destruct F as [I B]. exists d, k. split; [exact I|]. cbn [fst snd] in B.
    apply andb_prop in B. destruct B as [B1 B2]. apply Z.leb_le in B1. apply Z.ltb_lt in B2. split; assumption.
  - intros _ (d & k & I & B1 & B2). pose proof (find_none _ _ F _ I) as N. cbn [fst snd] in N.
    apply Z.leb_le in B1. apply Z.ltb_lt in B2. rewrite B1, B2 in N. discriminate.
  - reflexivity.
Qed.
Lemma owner_some tmp code valid_range d k x : temporaries_apart valid_range tmp code -> In (d, k) (flat_map allocated code) ->
  within x (tmp d, k) -> owner_of tmp (flat_map allocated code) x = Some d.
Proof.
  intros (_ & H & _) I B. destruct (owner_of tmp (flat_map allocated code) x) as [d'|] eqn:Q.
  - unfold owner_of in Q. destruct (find _ _) as [[e j]|] eqn:F; [|discriminate]. injection Q as <-. cbn [fst].
    apply find_some in F. destruct F as [I' B']. cbn [fst snd] in B'. apply andb_prop in B'. destruct B' as [B1 B2].
    apply Z.leb_le in B1. apply Z.ltb_lt in B2. f_equal. apply (H _ _ _ _ x I' I); [split; assumption|exact B].
  - exfalso. apply owner_none in Q. apply Q. exists d, k. split; assumption.
Qed.

Theorem expressions_read_write_and_yield_partial :
  forall G A fields struct_size valid_range ptr start,
  (forall i, 0 <= struct_size i) ->
  (forall x, (id (ptr x) < start)%nat /\ size (ptr x) = 8) ->
  forall u e, typed G A fields struct_size e -> covered G fields struct_size u e ->
  translated_right G A fields struct_size valid_range ptr start u e.
Proof.
  intros G A fields struct_size valid_range ptr start structs ptrs u e T C n L.
  pose proof (all_correct G A fields struct_size valid_range structs ptr start ptrs) as AC.
  (* the translation does not depend on where temporaries are *)
  destruct (AC (fun _ => 0) (fun _ => None) (fun _ _ _ _ => eq_refl) e u T C n L) as (ee & code & n' & E & Ln & DT & _).
  exists ee, code, n'. split; [exact E|]. split; [exact DT|].
  intros tmp s m r m' R W TA PV SM BM EV.
  set (owner := owner_of tmp (flat_map allocated code)).
  assert (OB : forall r x, valid_range r = true -> within x r -> owner x = None).
  { intros q x V X. apply owner_none. exact (proj2 (proj2 TA) q x V X). }
  destruct (AC tmp owner OB e u T C n L) as (ee' & code' & n'' & E' & _ & _ & _ & DY).
  rewrite E in E'. injection E' as <- <- <-.
  assert (RD : ready A ptr owner s m).
  { split; [exact PV|]. split; [intros x _; apply SM|]. split; [exact BM|]. intros x. rewrite SM. apply BM. }
  assert (PL : placed tmp owner code).
  { intros d k I. split; [exact (proj1 TA d k I)|]. intros x X. exact (owner_some _ _ _ _ _ _ TA I X). }
  destruct (DY s m r m' R W EV RD PL) as (s' & EVO & ST). exists s'.
  split; [exact (proj1 EVO)|]. split.
  { intros x X. apply (proj2 (proj2 EVO)). apply owner_none. exact X. }
  intros NU.
  destruct (eval_sound G A fields struct_size valid_range structs e _ _ _ _ _ T BM EV) as [SO K].
  split; [|split].
  - intros a ->. destruct ST as [X | (p & K1 & K2 & _)]; [contradiction|]. exists p. split; assumption.
  - intros a f w ->. destruct ST as [X | (p & K1 & K2 & _)]; [contradiction|]. exists p. split; [|exact K2].
    rewrite K1. f_equal. unfold type_is_signed, signed_type. destruct K as [_ K]. destruct (etype G fields e); try reflexivity.
    destruct t; reflexivity.
  - intros v R' o V B. pose proof (rd _ _ _ _ _ _ _ _ _ _ _ _ EVO) as RD'.
    assert (ST' : stands struct_size owner u n n' (R ++ R') (etype G fields e) ee s' (Val v o)).
    { eapply stands_value; [exact OB|exact ST|exact V|exact (proj1 (proj2 RD'))|]. intros a ->. exact (proj1 K). }
    destruct (value_sound G fields struct_size valid_range e r m' v R' o B K (proj1 (proj2 (proj2 RD'))) V) as [RG _].
    assert (KV : kind_of ee <> EE_VOID).
    { intros X. destruct ST' as [Y | Y]; [contradiction|]. rewrite X in Y. exact Y. }
    destruct (to_var_ok G A fields struct_size valid_range structs ptr start ptrs tmp owner OB ee n' KV) as (x & c & k & EX & _).
    destruct (to_var_runs G A fields struct_size valid_range structs ptr start ptrs tmp owner OB u ee n' x c k _ n (R ++ R') s' m' v o EX DT ST' NU RD' ltac:(lia) B RG)
      as (s2 & EV2 & M2 & H2 & Z2).
    exists x, c, k, s2. split; [exact EX|]. split; [exact (proj1 EV2)|]. split; [exact M2|]. split; [exact (proj1 H2)|exact Z2].
Qed.
Print Assumptions expressions_read_write_and_yield_partial.

(** ** A concrete case: [int i, a[4]; struct { long h; int b : 3, c : 5; } s; int *p;]
    with [i = 1], [a = {10, 20, 30, 40}], [s.b = -2], [p = a + 2]. *)
Definition ex_int := TInt ST_INT.
Definition ex_types (x : nat) : ty :=
  match x with 0%nat => ex_int | 1%nat => TArr 4 ex_int | 2%nat => TStr 0 | _ => TPtr ex_int end.
Definition ex_place (x : nat) : Z := match x with 0%nat => 1000 | 1%nat => 1016 | 2%nat => 1040 | _ => 1064 end.
Definition ex_fields (i : nat) : list field :=
  [ {| f_offset := 0; f_type := TInt ST_LONG; f_bits := None |};
    {| f_offset := 8; f_type := ex_int; f_bits := Some (0, 3) |};
    {| f_offset := 8; f_type := ex_int; f_bits := Some (3, 5) |} ].
Definition ex_size (i : nat) : Z := 16.
Definition ex_valid (r : range) : bool := (1000 <=? fst r) && (fst r + snd r <=? 1072).
Definition ex_ptr (x : nat) : node := {| id := Nat.min x 3; size := 8 |}.
Definition ex_memory (x : Z) : Z :=
  match x with
  | 1000 => 1 | 1016 => 10 | 1020 => 20 | 1024 => 30 | 1028 => 40
  | 1048 => 6 | 1064 => 0 | 1065 => 4 | _ => 0
  end.
Definition ex_state : state := {| env := fun k => ex_place k; mem_of := ex_memory |}.
Definition ex_tmp (d : nat) : Z := 2000 + 16 * Z.of_nat d.
Notation ex_evaluate := (evaluate ex_types ex_fields ex_size ex_ptr).
Notation ex_eval := (eval ex_types ex_place ex_fields ex_size ex_valid).

(** [*p++ = a[i] + (i < 2 ? s.b : 5)] *)
Definition ex_store : expr :=
  EAssign (EInd (EAssignPtr false true (EObject 3) (EConst ex_int 1)))
    (EBin OP_ADD (EInd (EPtr false (EDecay (EObject 1)) (EObject 0)))
      (ECond (EBin OP_LESS (EObject 0) (EConst ex_int 2)) (EDot (EObject 2) 1) (EConst ex_int 5))).

Ltac typed_by := cbn; lazymatch goal with
  | |- _ /\ _ => split; typed_by
  | |- True => exact I
  | |- exists _, _ => eexists; typed_by
  | |- _ = _ => reflexivity
  | |- _ <= _ => discriminate
  | |- _ < _ => reflexivity
  | |- _ \/ _ => first [solve [left; typed_by] | solve [right; typed_by]]
  | |- _ -> _ => discriminate
  | |- _ => progress hnf; typed_by
  end.
Example ex_store_typed : typed ex_types ex_place ex_fields ex_size ex_store.
Proof. typed_by. Qed.
Example ex_store_covered : covered ex_types ex_fields ex_size Value ex_store.
Proof. cbn. repeat split; discriminate. Qed.
(** The value is 18, [a[2]] becomes 18 and [p] points to [a[3]]. *)
Example ex_store_meaning :
  match yields ex_size ex_valid ex_int (ex_eval ex_store ex_memory) with
  | Some (v, _, m', _, _) => v = 18 /\ get m' 1024 4 = 18 /\ get m' 1064 8 = 1028 /\ get m' 1020 4 = 20
  | None => False
  end.
Proof. vm_compute. repeat split; reflexivity. Qed.
Example ex_store_code :
  match ex_evaluate ex_store 4%nat with
  | Ok (ee, code, n') =>
      (length (flat_map allocated code) = 2)%nat /\
      match steps ex_tmp code ex_state with
      | Ok s => get (mem_of s) 1024 4 = 18 /\ get (mem_of s) 1064 8 = 1028
          /\ match to_var ex_size ee n' with
             | Ok (x, c, _) => match steps ex_tmp c s with Ok s2 => word s2 x = 18 | _ => False end
             | _ => False
             end
      | _ => False
      end
  | _ => False
  end.
Proof. vm_compute. repeat split; reflexivity. Qed.
(** The temporaries of its code are apart. *)
Example ex_store_apart : match ex_evaluate ex_store 4%nat with
  | Ok (_, code, _) => temporaries_apart ex_valid ex_tmp code
  | _ => False
  end.
Proof.
  destruct (ex_evaluate ex_store 4%nat) as [[[ee code] n']| |] eqn:E; try (vm_compute in E; discriminate).
  assert (AL : exists d1 d2, flat_map allocated code = [(d1, 4); (d2, 4)] /\ (d1 < 100)%nat /\ (d2 < 100)%nat).
  { vm_compute in E. injection E as _ <- _. eexists _, _. split; [reflexivity|]. split; cbn; lia. }
  destruct AL as (d1 & d2 & AL & L1 & L2).
  unfold temporaries_apart, in_temporary. rewrite AL. unfold ex_tmp, ex_valid, within. cbn [fst snd].
  split; [|split].
  - intros d k [H | [H | []]]; injection H as <- <-; lia.
  - intros d k d' k' x [H | [H | []]] [H' | [H' | []]]; injection H as <- <-; injection H' as <- <-; intros X Y; try reflexivity; lia.
  - intros r x V X (d & k & H & B). apply andb_prop in V. destruct V as [V1 V2]. apply Z.leb_le in V1, V2.
    destruct H as [H | [H | []]]; injection H as <- <-; lia.
Qed.

(** ** What does not hold *)
(** The value of an assignment to a bit-field is that of the bit-field afterwards;
    here [s.b = 9] has the value 1 and the code yields 9. *)
Definition ex_field : expr := EAssign (EDot (EObject 2) 1) (EConst ex_int 9).
(** [*(p = &i)] is [i]; the code yields the address of [i]. *)
Definition ex_deref : expr := EInd (EAssign (EObject 3) (EConst (TPtr ex_int) 1000)).
(** A comparison has type int; that of two longs is made with eight bytes. *)
Definition ex_compare : expr := EBin OP_LESS (EDot (EObject 2) 0) (EDot (EObject 2) 0).

(** What the code of [e] leaves to be read. *)
Definition ex_read (e : expr) : option (Z * Z) :=
  match ex_evaluate e 4%nat with
  | Ok (ee, code, n') =>
      match steps ex_tmp code ex_state, to_var ex_size ee n' with
      | Ok s, Ok (x, c, _) => match steps ex_tmp c s with Ok s2 => Some (word s2 x, size x) | _ => None end
      | _, _ => None
      end
  | _ => None
  end.
Lemma refute e v z (t := etype ex_types ex_fields e) :
  match ex_evaluate e 4%nat with Ok (_, code, _) => flat_map allocated code = [] | _ => True end ->
  match yields ex_size ex_valid t (ex_eval e ex_memory) with Some (w, _, _, _, _) => w = v | None => False end ->
  0 <= bytes ex_size t -> ex_read e = Some z -> z <> (v, bytes ex_size t) ->
  ~ translated_right ex_types ex_place ex_fields ex_size ex_valid ex_ptr 4%nat Value e.
Proof.
  intros AL Y B RD NE H. destruct (H 4%nat (le_n 4)) as (ee & code & n' & E & _ & K). unfold ex_read in RD. rewrite E in AL, RD.
  unfold yields in Y. destruct (ex_eval e ex_memory) as [[[[r m'] R] W]|] eqn:EV; [|destruct Y].
  fold t in K. destruct (value_of ex_size ex_valid t r m') as [[[w R'] o]|] eqn:V; [|destruct Y]. subst w.
  destruct (K ex_tmp ex_state ex_memory r m' R W) as (s' & ST & _ & U).
  - unfold temporaries_apart, in_temporary. rewrite AL. split; [|split].
    + intros d k [].
    + intros d k d' k' x [].
    + intros q x _ _ (d & k & [] & _).
  - intros x. cbn. destruct x as [|[|[|[|x]]]]; reflexivity.
  - reflexivity.
  - intros x. unfold ex_memory. repeat match goal with |- context [match ?y with _ => _ end] => destruct y end; lia.
  - exact EV.
  - destruct (U ltac:(discriminate)) as (_ & _ & U3). destruct (U3 v R' o V B) as (x & c & k & s2 & TV & S2 & _ & WX & SX).
    rewrite ST, TV, S2 in RD. injection RD as <-. apply NE. rewrite WX, (SX eq_refl). reflexivity.
Qed.

Theorem assigned_bit_field_value_refuted :
  typed ex_types ex_place ex_fields ex_size ex_field
  /\ ~ translated_right ex_types ex_place ex_fields ex_size ex_valid ex_ptr 4%nat Value ex_field.
Proof.
  split; [typed_by|]. eapply (refute ex_field 1); try (vm_compute; reflexivity); try (vm_compute; discriminate).
Qed.
Print Assumptions assigned_bit_field_value_refuted.
Theorem dereferenced_constant_refuted :
  typed ex_types ex_place ex_fields ex_size ex_deref
  /\ ~ translated_right ex_types ex_place ex_fields ex_size ex_valid ex_ptr 4%nat Value ex_deref.
Proof.
  split; [typed_by|]. eapply (refute ex_deref 1); try (vm_compute; reflexivity); try (vm_compute; discriminate).
Qed.
Print Assumptions dereferenced_constant_refuted.
Theorem wide_comparison_value_refuted :
  typed ex_types ex_place ex_fields ex_size ex_compare
  /\ ~ translated_right ex_types ex_place ex_fields ex_size ex_valid ex_ptr 4%nat Value ex_compare.
Proof.
  split; [typed_by|]. eapply (refute ex_compare 0); try (vm_compute; reflexivity); try (vm_compute; discriminate).
Qed.
Print Assumptions wide_comparison_value_refuted.
