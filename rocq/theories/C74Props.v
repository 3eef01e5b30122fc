(** C74: calls under the Microsoft x64 convention. *)
From Coq Require Import Lia.
From Verif Require Import Base Common X86 Microsoft MicrosoftSpec MicrosoftProofs.
Ltac Zify.zify_post_hook ::= idtac.

Local Open Scope Z_scope.
Local Open Scope list_scope.

(** [word] gives the value of argument [i] (as bits), its address, and the address
    of the result; [s] is what was everywhere before the call. *)

(** *** The caller follows the convention: every argument that is named by the
    prototype or not floating is in the place of its number, by value or by
    reference, and the address of a result that is not returned in a register is
    in RCX. Missing: floating arguments that are not named (they must be in the
    vector register too), and floating arguments passed by reference. *)
Theorem C74_arguments_partial : forall ret named l c word s,
  expr_call ret named l = Ok c ->
  (forall i t k n,
    nth_error l i = Some t -> number_of ret i k -> passed_bytes t n ->
    ((i < named)%nat \/ m_float t = false) -> (m_float t = true -> by_value t) ->
    let b := m_float t in
    in_vector t b
    /\ (by_value t ->
        read (write_all word s (mc_words c)) (convention_place k b) n = word (Value i) mod 256 ^ n)
    /\ (~ by_value t ->
        read (write_all word s (mc_words c)) (convention_place k b) n = word (Address i) mod 256 ^ n))
  /\ (has_result_address ret ->
      read (write_all word s (mc_words c)) (convention_place 0 false) 8 = word Result mod 256 ^ 8).
Proof.
  intros ret named l c word s H. split.
  - intros i t k n Ht Hk Hn Hv Hf b.
    assert (B : in_vector t b).
    { unfold in_vector, b. destruct (fits t) eqn:E; [apply fits_spec in E; auto|].
      apply fits_no in E. right. split; [exact E|].
      destruct (m_float t); [destruct (E (Hf eq_refl))|reflexivity]. }
    split; [exact B|].
    pose proof (sent_read _ _ _ _ word s i t H Ht) as R. unfold sent in R.
    rewrite <- (hides_number _ _ _ Hk) in R.
    replace (Nat.ltb i named && m_float t)%bool with b in R.
    2:{ unfold b. destruct Hv as [Hv | ->].
        - rewrite (proj2 (Nat.ltb_lt _ _) Hv). reflexivity.
        - rewrite Bool.andb_false_r. reflexivity. }
    unfold bytes_of, item_of in R. destruct Hn as [[V ->] | [V ->]].
    + rewrite (proj2 (fits_spec t) V) in R. split; [auto|intros F; destruct (F V)].
    + rewrite (proj2 (fits_no t) V) in R. split; [intros F; destruct (V F)|auto].
  - intros R. apply (sent_result ret named l c word s H). apply hides_spec. exact R.
Qed.
Print Assumptions C74_arguments_partial.

(** *** The area for the call keeps the stack aligned, holds the 32 bytes of the
    callee, and everything stored into it lies above them and within it. Calls of
    up to 128 arguments are translated. *)
Theorem C74_stack : forall ret named l,
  (length l <= 128)%nat ->
  exists c, expr_call ret named l = Ok c
    /\ (16 | mc_change c) /\ 32 <= - mc_change c
    /\ forall o it n, In (Slot o, it, n) (mc_words c) -> 32 <= o /\ o + 8 <= - mc_change c.
Proof.
  intros ret named l L. destruct (call_total ret named l L) as [c H]. exists c.
  destruct (stack_ok _ _ _ _ H) as (M & B & S').
  split; [exact H|]. split; [apply Z.mod_divide in M; [exact M|lia]|]. split; [lia|exact S'].
Qed.
Print Assumptions C74_stack.

(** *** Caller and callee agree, for every prototype: each parameter is read with
    the bytes the argument was given, as is the address of the result unless the
    result is a long double. [l] are the arguments of the call, its first ones of
    the types of the parameters. *)
Theorem C74_agree : forall ret params rest variadic c f word s,
  expr_call ret (length params) (params ++ rest) = Ok c ->
  expr_function ret params variadic = Ok f ->
  length (mf_inputs f) = length params
  /\ (forall i t src n,
        nth_error params i = Some t -> nth_error (mf_inputs f) i = Some (src, n) ->
        let got := read (preamble f (write_all word s (mc_words c))) (at_source src) n in
        passed_bytes t n
        /\ (by_value t -> got = word (Value i) mod 256 ^ n)
        /\ (~ by_value t -> got = word (Address i) mod 256 ^ n))
  /\ (has_result_address ret -> m_float ret = false ->
      exists src, mf_result f = Some src
        /\ read (preamble f (write_all word s (mc_words c))) (at_source src) 8 = word Result mod 256 ^ 8)
  /\ (~ has_result_address ret -> mf_result f = None).
Proof.
  intros ret params rest v c f word s C F.
  destruct (function_inv _ _ _ _ F) as (I & _ & _ & R).
  split; [|split; [|split]].
  - rewrite <- (map_length placed), I. clear.
    generalize (if hides ret then 1%nat else 0%nat). induction params; intros; cbn; auto.
  - intros i t src n Ht Hs got.
    destruct (input_read ret _ _ c word s params v f i t src n C F eq_refl) as [-> G]; auto.
    { intros j Hj. apply nth_error_app1. exact Hj. }
    fold got in G. unfold passed_bytes, bytes_of, item_of in *. unfold sent in G.
    destruct (fits t) eqn:E.
    + apply fits_spec in E. split; [auto|]. split; [intros _; exact G|intros N; destruct (N E)].
    + apply fits_no in E. split; [auto|]. split; [intros N; destruct (E N)|intros _; exact G].
  - intros H Hf. apply hides_spec in H. rewrite H, Hf in R. exists (FromGp RCX).
    split; [exact R|]. cbn [at_source]. unfold read. rewrite preamble_other by discriminate.
    exact (sent_result _ _ _ _ word s C H).
  - intros H. rewrite <- hides_spec in H. destruct (hides ret); [congruence|exact R].
Qed.
Print Assumptions C74_agree.

(** *** Results passed by value are left by return where the call takes them from,
    the place of the convention; with any result, RBX, RDI and RSI are restored. *)
Theorem C74_result : forall ret named l c,
  expr_call ret named l = Ok c ->
  (m_void ret = true -> mc_result c = RVoid)
  /\ (m_void ret = false -> by_value ret ->
      mc_result c = RRegister (result_place ret) (m_size ret)
      /\ nth_error (expr_return ret) 0 = Some (result_place ret))
  /\ (has_result_address ret -> mc_result c = RMemory)
  /\ (In (Gp RBX) (expr_return ret) /\ In (Gp RDI) (expr_return ret) /\ In (Gp RSI) (expr_return ret)).
Proof.
  intros ret named l c H. destruct (call_inv _ _ _ _ H) as (_ & _ & R & _).
  split; [|split; [|split]].
  - intros V. rewrite V in R. exact R.
  - intros V B. apply fits_spec in B. rewrite V, B in R. split; [exact R|].
    unfold expr_return. rewrite V, B. reflexivity.
  - intros [V B]. apply fits_no in B. rewrite V, B in R. exact R.
  - unfold expr_return. destruct (m_void ret), (fits ret); cbn; tauto.
Qed.
Print Assumptions C74_result.

(** *** va_start and va_arg deliver the unnamed arguments, in order. [expected] are
    the bits of the arguments from number [i] on. Missing: functions that return
    through an address. *)
Fixpoint expected (word : item -> Z) (i : nat) (l : list mtype) (r : list Z) : Prop :=
  match l, r with
  | [], [] => True
  | t :: l, v :: r =>
      (by_value t -> v = word (Value i) mod 256 ^ m_size t)
      /\ (~ by_value t -> v = word (Address i) mod 256 ^ 8)
      /\ expected word (S i) l r
  | _, _ => False
  end.
Theorem C74_va_arg_partial : forall ret params rest c f word s,
  ~ has_result_address ret ->
  expr_call ret (length params) (params ++ rest) = Ok c ->
  expr_function ret params true = Ok f ->
  expected word (length params) rest
    (va_args (preamble f (write_all word s (mc_words c))) (va_start f) rest).
Proof.
  intros ret params rest c f word s H C F. rewrite <- hides_spec in H.
  pose proof (va_args_ok ret _ _ c word s params rest f C F eq_refl eq_refl
                ltac:(destruct (hides ret); congruence)) as E. unfold sent in E. rewrite E. clear.
  generalize (length params). induction rest as [|t rest IH]; intros i; cbn [delivered_from expected]; [exact I|].
  unfold delivered, item_of, bytes_of. destruct (fits t) eqn:B.
  - apply fits_spec in B. split; [reflexivity|]. split; [intros N; destruct (N B)|apply IH].
  - apply fits_no in B. split; [intros N; destruct (B N)|]. split; [reflexivity|apply IH].
Qed.
Print Assumptions C74_va_arg_partial.

(** ** Where the program departs from the convention *)

(** *** In every variadic function that returns through an address, the first
    va_arg delivers the last named parameter, not the first unnamed argument. *)
Theorem C74_va_start_refuted : forall ret params t u rest c f word s,
  has_result_address ret -> by_value t -> by_value u -> m_size u <= m_size t -> m_float t = false ->
  expr_call ret (length (params ++ [t])) ((params ++ [t]) ++ u :: rest) = Ok c ->
  expr_function ret (params ++ [t]) true = Ok f ->
  nth_error (va_args (preamble f (write_all word s (mc_words c))) (va_start f) (u :: rest)) 0
  = Some (word (Value (length params)) mod 256 ^ m_size u).
Proof.
  intros ret params t u rest c f word s H Bt Bu Hs Ht C F. apply hides_spec in H.
  destruct (function_inv _ _ _ _ F) as (_ & V & A & _).
  cbn [va_args va_arg nth_error]. f_equal. rewrite (proj2 (fits_spec u) Bu).
  unfold va_start. rewrite A, app_length. cbn [length at_source]. unfold read.
  replace (Z.of_nat (length params + 1) * 8 + 16 - 16) with (8 * Z.of_nat (1 + length params)) by lia.
  assert (Hu : 0 < m_size u) by (unfold by_value in Bu; lia).
  assert (Ht8 : m_size t <= 8) by (unfold by_value in Bt; lia).
  rewrite mod_mod_pow by lia. rewrite preamble_slot; [|exact V|lia].
  assert (Hn : nth_error ((params ++ [t]) ++ u :: rest) (length params) = Some t).
  { rewrite <- app_assoc. rewrite nth_error_app2 by lia. rewrite Nat.sub_diag. reflexivity. }
  pose proof (sent_read _ _ _ _ word s _ t C Hn) as R. rewrite H, Ht, Bool.andb_false_r in R.
  unfold item_of, bytes_of, read, sent in R. rewrite (proj2 (fits_spec t) Bt) in R.
  assert (M : forall a, a mod 256 ^ m_size u = (a mod 256 ^ m_size t) mod 256 ^ m_size u).
  { intros a. replace (m_size t) with (m_size u + (m_size t - m_size u)) by lia.
    rewrite Z.pow_add_r by lia.
    assert (0 < 256 ^ m_size u) by (apply Z.pow_pos_nonneg; lia).
    assert (0 < 256 ^ (m_size t - m_size u)) by (apply Z.pow_pos_nonneg; lia).
    rewrite Z.rem_mul_r by lia. rewrite Z.mul_comm, Z.mod_add by lia. symmetry. apply Z.mod_mod. lia. }
  rewrite M, R, <- M. reflexivity.
Qed.
Print Assumptions C74_va_start_refuted.

(** *** The address of the result is never given back in RAX. *)
Theorem C74_result_address_refuted : forall ret,
  has_result_address ret -> ~ In (Gp RAX) (expr_return ret).
Proof.
  intros ret [V B]. apply fits_no in B. unfold expr_return. rewrite V, B. cbn. intuition discriminate.
Qed.
Print Assumptions C74_result_address_refuted.

(** *** A function returning long double writes its result where the third
    vector register says: the address passed in RCX has no part in it. *)
Theorem C74_long_double_refuted : forall ret params variadic f,
  has_result_address ret -> m_float ret = true ->
  expr_function ret params variadic = Ok f ->
  exists src, mf_result f = Some src /\ at_source src = Vec 2
  /\ forall named c word word' s, (forall i, word (Value i) = word' (Value i) /\ word (Address i) = word' (Address i)) ->
     expr_call ret named params = Ok c ->
     read (write_all word s (mc_words c)) (at_source src) 8 = read (write_all word' s (mc_words c)) (at_source src) 8.
Proof.
  intros ret params v f H Hf F. apply hides_spec in H.
  destruct (function_inv _ _ _ _ F) as (_ & _ & _ & R). rewrite H, Hf in R.
  exists (FromVec 2). split; [exact R|]. split; [reflexivity|].
  intros named c word word' s E C. destruct (call_inv _ _ _ _ C) as (_ & W & _). rewrite W, H.
  cbn [app write_all at_source]. clear - E. unfold read. f_equal.
  assert (G : forall l i k (a b : words), a (Vec 2) = b (Vec 2) ->
    write_all word a (by_number named i k l) (Vec 2) = write_all word' b (by_number named i k l) (Vec 2)).
  { induction l as [|t l IH]; intros i k a b Hab; cbn [by_number write_all]; [exact Hab|].
    apply IH. unfold write. rewrite Hab. destruct (place_eqb _ _); [|reflexivity].
    unfold item_of. destruct (E i) as [E1 E2]. destruct (fits t); congruence. }
  apply G. rewrite !write_other by discriminate. reflexivity.
Qed.
Print Assumptions C74_long_double_refuted.

(** *** A floating argument that no parameter names is not in its vector register,
    which keeps what it had: a variadic callee, or one declared without a
    prototype, does not find it there. *)
Theorem C74_unnamed_float_refuted : forall ret named l c word s i t k,
  expr_call ret named l = Ok c -> nth_error l i = Some t -> m_float t = true -> (named <= i)%nat ->
  number_of ret i k -> (k < 4)%nat ->
  write_all word s (mc_words c) (convention_place k true) = s (convention_place k true).
Proof.
  intros ret named l c word s i t k C Ht Hf Hi Hk L.
  pose proof (hides_number _ _ _ Hk) as K.
  destruct (call_inv _ _ _ _ C) as (_ & W & _). rewrite W.
  apply write_all_other. intros e He. apply in_app_or in He. destruct He as [He | He].
  - destruct (hides ret); [destruct He as [<- | []]|destruct He].
    unfold place_of. cbn [fst]. rewrite place_register by lia. discriminate.
  - revert He K Hi. clear - L. generalize (if hides ret then 1%nat else 0%nat). intros h He K Hi.
    assert (G : forall l j q, In e (by_number named j q l) -> (j + h = q)%nat ->
      exists m b, place_of e = convention_place (h + m) b /\ (b = true -> (m < named)%nat)).
    { clear. induction l as [|u l IH]; intros j q H E; cbn [by_number] in H; [destruct H|].
      destruct H as [<- | H].
      - exists j, (Nat.ltb j named && m_float u)%bool. split.
        + unfold place_of. cbn [fst]. f_equal. lia.
        + intros B. apply Bool.andb_true_iff in B. apply Nat.ltb_lt. apply B.
      - apply (IH (S j) (S q)); auto. lia. }
    destruct (G l 0%nat h He eq_refl) as (m & b & -> & B). intros E.
    assert (N : (h + m)%nat = k).
    { apply Nat2Z.inj. rewrite <- (number_place (h + m) b), <- (number_place k true). rewrite E. reflexivity. }
    destruct b; [specialize (B eq_refl); lia|].
    rewrite N, !place_register in E by lia. discriminate E.
Qed.
Print Assumptions C74_unnamed_float_refuted.

(** ** Concrete cases *)
Definition t_int := {| m_size := 4; m_float := false; m_void := false |}.
Definition t_double := {| m_size := 8; m_float := true; m_void := false |}.
Definition t_long_double := {| m_size := 16; m_float := true; m_void := false |}.
Definition t_big := {| m_size := 24; m_float := false; m_void := false |}.
Definition t_void := {| m_size := 1; m_float := false; m_void := true |}.

Example C74_ex_mixed :
  match expr_call t_big 5 [t_int; t_double; t_big; t_double; t_int], expr_function t_big [t_int; t_double; t_big; t_double; t_int] false with
  | Ok c, Ok f =>
      mc_words c = [(Gp RCX, Result, 8); (Gp RDX, Value 0, 4); (Vec 2, Value 1, 8); (Gp R_9, Address 2, 8);
                    (Slot 32, Value 3, 8); (Slot 40, Value 4, 4)]
      /\ mc_change c = -80 /\ mc_result c = RMemory
      /\ mf_result f = Some (FromGp RCX)
      /\ mf_inputs f = [(FromGp RDX, 4); (FromVec 2, 8); (FromGp R_9, 8); (FromBase 48, 8); (FromBase 56, 4)]
  | _, _ => False
  end.
Proof. vm_compute. repeat split; reflexivity. Qed.

Example C74_ex_variadic :
  match expr_call t_int 1 [t_big; t_int; t_double; t_big; t_int; t_int], expr_function t_int [t_big] true with
  | Ok c, Ok f =>
      va_args (preamble f (write_all (fun it => match it with Value i => 100 + Z.of_nat i | Address i => 200 + Z.of_nat i | Result => 7 end)
                                     (fun _ => 2 ^ 40 + 9) (mc_words c)))
              (va_start f) [t_int; t_double; t_big; t_int; t_int]
      = [101; 102; 203; 104; 105]
  | _, _ => False
  end.
Proof. vm_compute. reflexivity. Qed.

Example C74_ex_variadic_wrong :
  match expr_call t_big 1 [t_int; t_int; t_int], expr_function t_big [t_int] true with
  | Ok c, Ok f =>
      va_args (preamble f (write_all (fun it => match it with Value i => 100 + Z.of_nat i | Address i => 200 + Z.of_nat i | Result => 7 end)
                                     (fun _ => 0) (mc_words c)))
              (va_start f) [t_int; t_int]
      = [100; 101]
  | _, _ => False
  end.
Proof. vm_compute. reflexivity. Qed.

Example C74_ex_hypotheses :
  ~ has_result_address t_void /\ ~ has_result_address t_int /\ has_result_address t_big
  /\ has_result_address t_long_double /\ number_of t_big 3 4 /\ passed_bytes t_big 8 /\ passed_bytes t_int 4
  /\ by_value t_double.
Proof.
  unfold number_of, passed_bytes, has_result_address, by_value; cbn.
  repeat split; try lia; try (intros [? ?]; discriminate || lia).
Qed.
