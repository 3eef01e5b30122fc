(** Proofs about calls under the Microsoft convention. *)
From Coq Require Import Lia.
From Verif Require Import Base Common X86 Microsoft MicrosoftSpec PassingCall.
Ltac Zify.zify_post_hook ::= idtac.

Local Open Scope Z_scope.
Local Open Scope list_scope.

Lemma fits_spec t : fits t = true <-> by_value t.
Proof.
  unfold fits, by_value. rewrite !Bool.orb_true_iff, !Z.eqb_eq. tauto.
Qed.
Lemma fits_no t : fits t = false <-> ~ by_value t.
Proof. rewrite <- fits_spec. destruct (fits t); split; congruence. Qed.

Definition item_of (i : nat) (t : mtype) : item := if fits t then Value i else Address i.
Definition bytes_of (t : mtype) : Z := if fits t then m_size t else 8.

Lemma bytes_pos t : 0 < bytes_of t <= 8.
Proof.
  unfold bytes_of. destruct (fits t) eqn:E; [|lia].
  apply fits_spec in E. unfold by_value in E. lia.
Qed.

(** The arguments by their numbers. *)
Fixpoint by_number (named i k : nat) (l : list mtype) : list (place * item * Z) :=
  match l with
  | [] => []
  | t :: l => (convention_place k (Nat.ltb i named && m_float t), item_of i t, bytes_of t)
              :: by_number named (S i) (S k) l
  end.

Lemma place_stack k b : (4 <= k)%nat -> convention_place k b = Slot (8 * Z.of_nat k).
Proof. intros. do 4 (destruct k as [|k]; [lia|]). reflexivity. Qed.
Lemma place_register k b : (k < 4)%nat ->
  convention_place k b = if b then Vec (Z.of_nat k) else Gp (nth k ms_registers RAX).
Proof. intros. do 4 (destruct k as [|k]; [destruct b; reflexivity|]). lia. Qed.

Lemma call_args_stack named l : forall i k,
  (4 <= k)%nat -> call_args named i 4 (8 * (Z.of_nat k - 4)) l = by_number named i k l.
Proof.
  induction l as [|t l IH]; intros i k Hk; cbn [call_args by_number]; [reflexivity|].
  cbn [Nat.ltb Nat.leb]. rewrite place_stack by lia.
  replace (8 * (Z.of_nat k - 4) + 8) with (8 * (Z.of_nat (S k) - 4)) by lia.
  rewrite IH by lia. unfold shadow_space.
  replace (8 * (Z.of_nat k - 4) + 32) with (8 * Z.of_nat k) by lia. reflexivity.
Qed.
Lemma call_args_number named l : forall i k,
  (k <= 4)%nat -> call_args named i k 0 l = by_number named i k l.
Proof.
  induction l as [|t l IH]; intros i k Hk; [reflexivity|].
  destruct (Nat.ltb_spec k 4) as [H|H].
  - cbn [call_args by_number]. rewrite (proj2 (Nat.ltb_lt k 4) H), place_register by lia.
    rewrite IH by lia. reflexivity.
  - assert (k = 4%nat) by lia. subst. exact (call_args_stack named (t :: l) i 4 (le_n _)).
Qed.

(** The number of a place. *)
Definition number (p : place) : Z :=
  match p with
  | Gp RCX => 0 | Gp RDX => 1 | Gp R_8 => 2 | Gp R_9 => 3 | Gp _ => -1
  | Vec i => i
  | Slot o => o / 8
  end.
Lemma number_place k b : number (convention_place k b) = Z.of_nat k.
Proof.
  destruct (Nat.ltb_spec k 4) as [H|H].
  - rewrite place_register by lia. do 4 (destruct k as [|k]; [destruct b; reflexivity|]). lia.
  - rewrite place_stack by lia. cbn [number]. rewrite Z.mul_comm, Z.div_mul by lia. reflexivity.
Qed.

Lemma place_eqb_eq p q : place_eqb p q = true <-> p = q.
Proof.
  destruct p, q; cbn [place_eqb]; try (split; congruence).
  - destruct (reg_eqb_spec r r0); split; congruence.
  - rewrite Z.eqb_eq. split; congruence.
  - rewrite Z.eqb_eq. split; congruence.
Qed.
Lemma place_eqb_refl p : place_eqb p p = true.
Proof. apply place_eqb_eq. reflexivity. Qed.
Lemma place_eqb_neq p q : p <> q -> place_eqb p q = false.
Proof. destruct (place_eqb p q) eqn:E; [apply place_eqb_eq in E; congruence|reflexivity]. Qed.

Lemma write_same s p n v : 0 <= n -> read (write s p n v) p n = v mod 256 ^ n.
Proof.
  intros. unfold read, write. rewrite place_eqb_refl, Z.add_comm, Z.mod_add, Z.mod_mod; auto;
    apply Z.pow_nonzero; lia.
Qed.
Lemma write_other s p q n v : p <> q -> write s q n v p = s p.
Proof. intros. unfold write. rewrite place_eqb_neq; auto. Qed.

Definition place_of (e : place * item * Z) : place := fst (fst e).

Lemma write_all_other word l : forall s p,
  (forall e, In e l -> place_of e <> p) -> write_all word s l p = s p.
Proof.
  induction l as [|[[q it] n] l IH]; intros s p H; cbn [write_all]; [reflexivity|].
  rewrite IH by (intros; apply H; right; auto).
  apply write_other. intros ->. exact (H _ (or_introl eq_refl) eq_refl).
Qed.

Lemma by_number_ge named l : forall i k e,
  In e (by_number named i k l) -> Z.of_nat k <= number (place_of e).
Proof.
  induction l as [|t l IH]; intros i k e H; cbn [by_number] in H; [destruct H|].
  destruct H as [<- | H].
  - cbn [place_of fst]. unfold place_of. cbn [fst]. rewrite number_place. lia.
  - apply IH in H. lia.
Qed.

Lemma by_number_read named word l : forall i k s j t,
  nth_error l j = Some t ->
  read (write_all word s (by_number named i k l))
       (convention_place (k + j) (Nat.ltb (i + j) named && m_float t)) (bytes_of t)
  = word (item_of (i + j) t) mod 256 ^ bytes_of t.
Proof.
  induction l as [|u l IH]; intros i k s [|j] t H; try discriminate; cbn [nth_error] in H.
  - injection H as ->. cbn [by_number write_all]. rewrite !Nat.add_0_r.
    unfold read at 1. rewrite write_all_other.
    + apply write_same. pose proof (bytes_pos t). lia.
    + intros e He E. apply by_number_ge in He. rewrite E, number_place in He. lia.
  - cbn [by_number write_all]. rewrite <- !Nat.add_succ_comm. apply IH. exact H.
Qed.
Lemma by_number_below named word l i k s p :
  number p < Z.of_nat k -> write_all word s (by_number named i k l) p = s p.
Proof.
  intros. apply write_all_other. intros e He <-. apply by_number_ge in He. lia.
Qed.

(** ** The call as a whole *)
Definition hides (ret : mtype) : bool := negb (m_void ret) && negb (fits ret).
Lemma hides_spec ret : hides ret = true <-> has_result_address ret.
Proof.
  unfold hides, has_result_address. rewrite Bool.andb_true_iff, !Bool.negb_true_iff, fits_no. tauto.
Qed.
Lemma hides_number ret i k : number_of ret i k -> k = ((if hides ret then 1 else 0) + i)%nat.
Proof.
  intros [[H ->] | [H ->]].
  - apply hides_spec in H. rewrite H. reflexivity.
  - rewrite <- hides_spec in H. destruct (hides ret); [congruence|reflexivity].
Qed.

Lemma call_inv ret named l c : expr_call ret named l = Ok c ->
  (length l <= 128)%nat
  /\ mc_words c = (if hides ret then [(Gp RCX, Result, 8)] else [])
                  ++ by_number named 0 (if hides ret then 1 else 0) l
  /\ mc_result c = (if m_void ret then RVoid else if fits ret then RRegister (result_place ret) (m_size ret) else RMemory)
  /\ exists up, round_up_to_nearest (Z.of_nat (length l) * 8) 16 = Ok up
       /\ mc_change c = - Z.max 32 up - 32.
Proof.
  unfold expr_call. destruct (Nat.ltb_spec 128 (length l)) as [H|H]; [discriminate|].
  destruct (round_up_to_nearest (Z.of_nat (length l) * 8) 16) as [up| |] eqn:R; try discriminate.
  cbn [bind]. injection 1 as <-. cbn [mc_words mc_result mc_change].
  fold (hides ret). split; [lia|]. split; [|split].
  - destruct (hides ret); cbn [length app]; rewrite call_args_number by lia; reflexivity.
  - unfold hides, result_place. destruct (m_void ret), (fits ret); reflexivity.
  - exists up. auto.
Qed.
Lemma call_total ret named l : (length l <= 128)%nat -> exists c, expr_call ret named l = Ok c.
Proof.
  intros. unfold expr_call. destruct (Nat.ltb_spec 128 (length l)); [lia|].
  destruct (round16_total (Z.of_nat (length l) * 8)) as (up & -> & _); [lia | |].
  - apply Z.le_lt_trans with (128 * 8 + 16); [lia|reflexivity].
  - cbn [bind]. eexists. reflexivity.
Qed.

Definition sent (word : item -> Z) (s : words) (c : ms_call) : words := write_all word s (mc_words c).

Lemma sent_read ret named l c word s j t : expr_call ret named l = Ok c -> nth_error l j = Some t ->
  read (sent word s c)
       (convention_place ((if hides ret then 1 else 0) + j) (Nat.ltb j named && m_float t)) (bytes_of t)
  = word (item_of j t) mod 256 ^ bytes_of t.
Proof.
  intros H Hj. destruct (call_inv _ _ _ _ H) as (_ & W & _). unfold sent. rewrite W.
  destruct (hides ret); cbn [app write_all]; exact (by_number_read named word l 0 _ _ j t Hj).
Qed.
Lemma sent_result ret named l c word s : expr_call ret named l = Ok c -> hides ret = true ->
  read (sent word s c) (Gp RCX) 8 = word Result mod 256 ^ 8.
Proof.
  intros H E. destruct (call_inv _ _ _ _ H) as (_ & W & _). unfold sent. rewrite W, E.
  cbn [app write_all]. unfold read. rewrite by_number_below by (cbn; lia).
  apply write_same. lia.
Qed.

(** ** The callee *)
Fixpoint inputs_by_number (k : nat) (l : list mtype) : list (place * Z) :=
  match l with
  | [] => []
  | t :: l => (convention_place k (m_float t), bytes_of t) :: inputs_by_number (S k) l
  end.
Definition placed (e : source * Z) : place * Z := (at_source (fst e), snd e).

Lemma function_args_stack l : forall k, (4 <= k)%nat ->
  map placed (function_args 4 (8 * (Z.of_nat k - 4)) l) = inputs_by_number k l.
Proof.
  induction l as [|t l IH]; intros k Hk; cbn [function_args inputs_by_number]; [reflexivity|].
  cbn [Nat.ltb Nat.leb map]. rewrite place_stack by lia.
  replace (8 * (Z.of_nat k - 4) + 8) with (8 * (Z.of_nat (S k) - 4)) by lia.
  rewrite IH by lia. unfold placed at 1. cbn [fst snd at_source]. unfold shadow_space.
  replace (8 * (Z.of_nat k - 4) + 16 + 32 - 16) with (8 * Z.of_nat k) by lia. reflexivity.
Qed.
Lemma function_args_number l : forall k, (k <= 4)%nat ->
  map placed (function_args k 0 l) = inputs_by_number k l.
Proof.
  induction l as [|t l IH]; intros k Hk; [reflexivity|].
  destruct (Nat.ltb_spec k 4) as [H|H].
  - cbn [function_args inputs_by_number]. rewrite (proj2 (Nat.ltb_lt k 4) H), place_register by lia.
    cbn [map]. rewrite IH by lia. unfold placed at 1. cbn [fst snd].
    destruct (m_float t); reflexivity.
  - assert (k = 4%nat) by lia. subst. exact (function_args_stack (t :: l) 4 (le_n _)).
Qed.
Lemma inputs_nth l : forall k j t, nth_error l j = Some t ->
  nth_error (inputs_by_number k l) j = Some (convention_place (k + j) (m_float t), bytes_of t).
Proof.
  induction l as [|u l IH]; intros k [|j] t H; try discriminate; cbn [nth_error] in H.
  - injection H as ->. cbn. rewrite Nat.add_0_r. reflexivity.
  - cbn [inputs_by_number nth_error]. rewrite <- Nat.add_succ_comm. auto.
Qed.

Lemma function_inv ret params v f : expr_function ret params v = Ok f ->
  map placed (mf_inputs f) = inputs_by_number (if hides ret then 1 else 0) params
  /\ mf_variadic f = v /\ mf_args f = length params
  /\ mf_result f = if hides ret then Some (if m_float ret then FromVec 2 else FromGp RCX) else None.
Proof.
  unfold expr_function. destruct (Nat.ltb 128 (length params)); [discriminate|].
  fold (hides ret). injection 1 as <-. cbn [mf_inputs mf_variadic mf_args mf_result].
  repeat split; try reflexivity. destruct (hides ret); apply function_args_number; lia.
Qed.

Lemma preamble_other f s p : (forall o, p = Slot o -> 32 <= o) -> preamble f s p = s p.
Proof.
  intros H. unfold preamble. destruct (mf_variadic f); [|reflexivity].
  assert (D : forall o, o < 32 -> p <> Slot o) by (intros o Ho ->; specialize (H o eq_refl); lia).
  cbn [at_source]. rewrite !write_other; auto; apply D; lia.
Qed.
Lemma place_above k b o : convention_place k b = Slot o -> 32 <= o.
Proof.
  destruct (Nat.ltb_spec k 4) as [H|H].
  - rewrite place_register by lia. destruct b; discriminate.
  - rewrite place_stack by lia. injection 1 as <-. lia.
Qed.

Lemma input_read ret named l c word s params v f j t src n :
  expr_call ret named l = Ok c -> expr_function ret params v = Ok f ->
  named = length params -> (forall i, (i < named)%nat -> nth_error l i = nth_error params i) ->
  nth_error params j = Some t -> nth_error (mf_inputs f) j = Some (src, n) ->
  n = bytes_of t /\ read (preamble f (sent word s c)) (at_source src) n = word (item_of j t) mod 256 ^ n.
Proof.
  intros C F -> P Hj Hs. destruct (function_inv _ _ _ _ F) as (I & _).
  assert (L : (j < length params)%nat) by (apply nth_error_Some; congruence).
  pose proof (map_nth_error placed _ _ Hs) as E. rewrite I in E.
  rewrite (inputs_nth _ _ _ _ Hj) in E. injection E as E1 E2. cbn [fst snd] in *. subst n.
  split; [reflexivity|]. rewrite <- E1. unfold read.
  rewrite preamble_other by (intros o Ho; exact (place_above _ _ _ Ho)).
  pose proof (sent_read _ _ _ _ word s j t C (eq_trans (P j L) Hj)) as R.
  rewrite (proj2 (Nat.ltb_lt _ _) L) in R. exact R.
Qed.

(** ** Variable arguments *)
Lemma mod_mod_pow a n : 0 <= n <= 8 -> (a mod 256 ^ 8) mod 256 ^ n = a mod 256 ^ n.
Proof.
  intros. replace 8 with (n + (8 - n)) by lia. rewrite Z.pow_add_r by lia.
  assert (0 < 256 ^ n) by (apply Z.pow_pos_nonneg; lia).
  assert (0 < 256 ^ (8 - n)) by (apply Z.pow_pos_nonneg; lia).
  rewrite Z.rem_mul_r by lia. rewrite Z.mul_comm, Z.mod_add by lia. apply Z.mod_mod. lia.
Qed.

Lemma write_mod s p v n : 0 <= n <= 8 -> write s p 8 v p mod 256 ^ n = v mod 256 ^ n.
Proof.
  intros Hn. pose proof (write_same s p 8 v ltac:(lia)) as W. unfold read in W.
  rewrite <- (mod_mod_pow (write s p 8 v p)) by exact Hn. rewrite W. apply mod_mod_pow. exact Hn.
Qed.
Lemma preamble_slot f s k n : mf_variadic f = true -> 0 <= n <= 8 ->
  preamble f s (Slot (8 * Z.of_nat k)) mod 256 ^ n = s (convention_place k false) mod 256 ^ n.
Proof.
  intros V Hn. destruct (Nat.ltb_spec k 4) as [H|H].
  - unfold preamble. rewrite V. cbn [at_source].
    assert (k = 0 \/ k = 1 \/ k = 2 \/ k = 3)%nat as [-> | [-> | [-> | ->]]] by lia.
    + change (Slot (16 - 16)) with (Slot (8 * Z.of_nat 0)).
      rewrite !write_other by (intros E; injection E as E; discriminate E). apply write_mod. exact Hn.
    + change (Slot (24 - 16)) with (Slot (8 * Z.of_nat 1)).
      do 2 rewrite write_other by (intros E; injection E as E; discriminate E). apply write_mod. exact Hn.
    + change (Slot (32 - 16)) with (Slot (8 * Z.of_nat 2)).
      rewrite write_other by (intros E; injection E as E; discriminate E). apply write_mod. exact Hn.
    + change (Slot (40 - 16)) with (Slot (8 * Z.of_nat 3)). apply write_mod. exact Hn.
  - rewrite place_stack by lia. rewrite preamble_other; [reflexivity|].
    intros o E. injection E as <-. lia.
Qed.

(** The word that va_arg delivers for argument [i]. *)
Definition delivered (word : item -> Z) (i : nat) (t : mtype) : Z :=
  word (item_of i t) mod 256 ^ bytes_of t.
Fixpoint delivered_from (word : item -> Z) (i : nat) (l : list mtype) : list Z :=
  match l with [] => [] | t :: l => delivered word i t :: delivered_from word (S i) l end.

Lemma va_args_from s f word l : forall k,
  mf_variadic f = true ->
  (forall j t, nth_error l j = Some t ->
     read s (convention_place (k + j) false) (bytes_of t) = delivered word (k + j) t) ->
  va_args (preamble f s) (Z.of_nat k * 8 + 16) l = delivered_from word k l.
Proof.
  induction l as [|t l IH]; intros k V H; [reflexivity|].
  cbn [va_args va_arg delivered_from]. f_equal.
  - pose proof (H 0%nat t eq_refl) as E. rewrite Nat.add_0_r in E. rewrite <- E.
    unfold va_arg, read. cbn [at_source fst].
    replace (Z.of_nat k * 8 + 16 - 16) with (8 * Z.of_nat k) by lia.
    pose proof (bytes_pos t) as B. unfold bytes_of in *. destruct (fits t).
    + rewrite mod_mod_pow by lia. apply preamble_slot; auto; lia.
    + apply preamble_slot; auto; lia.
  - replace (Z.of_nat k * 8 + 16 + 8) with (Z.of_nat (S k) * 8 + 16) by lia.
    apply IH; auto. intros j u Hj. rewrite Nat.add_succ_comm. apply H. exact Hj.
Qed.

Lemma va_args_ok ret named l c word s params rest f :
  expr_call ret named l = Ok c -> expr_function ret params true = Ok f ->
  named = length params -> l = params ++ rest -> hides ret = false ->
  va_args (preamble f (sent word s c)) (va_start f) rest = delivered_from word named rest.
Proof.
  intros C F -> -> E. destruct (function_inv _ _ _ _ F) as (_ & V & A & _).
  unfold va_start. rewrite A. apply va_args_from; [exact V|].
  intros j t Hj.
  assert (Hn : nth_error (params ++ rest) (length params + j) = Some t)
    by (rewrite nth_error_app2 by lia; rewrite Nat.add_comm, Nat.add_sub; exact Hj).
  pose proof (sent_read _ _ _ _ word s _ t C Hn) as R. rewrite E in R.
  replace (Nat.ltb (length params + j) (length params)) with false in R
    by (symmetry; apply Nat.ltb_ge; lia).
  exact R.
Qed.

(** ** The stack *)
Lemma by_number_slot named l : forall i k o it n, In (Slot o, it, n) (by_number named i k l) ->
  32 <= o /\ o + 8 <= 8 * (Z.of_nat k + Z.of_nat (length l)).
Proof.
  induction l as [|t l IH]; intros i k o it n H; cbn [by_number] in H; [destruct H|].
  cbn [length]. destruct H as [H | H].
  - injection H as P _ _. split; [exact (place_above _ _ _ P)|].
    destruct (Nat.ltb_spec k 4) as [L|L].
    + rewrite place_register in P by lia. destruct (_ && _); discriminate.
    + rewrite place_stack in P by lia. injection P as <-. lia.
  - apply IH in H. lia.
Qed.
Lemma stack_ok ret named l c : expr_call ret named l = Ok c ->
  mc_change c mod 16 = 0 /\ 64 <= - mc_change c
  /\ forall o it n, In (Slot o, it, n) (mc_words c) -> 32 <= o /\ o + 8 <= - mc_change c.
Proof.
  intros H. destruct (call_inv _ _ _ _ H) as (L & W & _ & up & R & ->).
  destruct (round16_total (Z.of_nat (length l) * 8)) as (up' & R' & B & M); [lia | |].
  { apply Z.le_lt_trans with (128 * 8 + 16); [lia|reflexivity]. }
  rewrite R in R'. injection R' as <-. split; [|split].
  - apply Z.mod_divide; [lia|]. apply Z.mod_divide in M; [|lia]. destruct M as [q ->].
    destruct (Z.max_spec 32 (q * 16)) as [[_ ->] | [_ ->]].
    + exists (- q - 2). lia.
    + exists (-4). reflexivity.
  - lia.
  - intros o it n Hin. rewrite W in Hin. apply in_app_or in Hin. destruct Hin as [Hin | Hin].
    + destruct (hides ret); [destruct Hin as [Hin | []]; discriminate | destruct Hin].
    + apply by_number_slot in Hin. destruct (hides ret); cbn [Z.of_nat Pos.of_succ_nat] in Hin; lia.
Qed.
