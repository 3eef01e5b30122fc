(** The parts of the translation of expressions: what the code of each does. *)
From Coq Require Import Lia.
From Verif Require Import Base Bytes Arch CTypesSpec ConstFold X86 X86Proofs Codegen OpSelect PtrSpec PtrExpr PtrArith PtrEval.
Ltac Zify.zify_post_hook ::= idtac.

Local Open Scope Z_scope.
Local Open Scope list_scope.

Section Parts.
Variables (G : nat -> ty) (A : nat -> Z) (fields : nat -> list field) (struct_size : nat -> Z).
Variable valid_range : range -> bool.
Hypothesis structs : forall i, 0 <= struct_size i.
Variable ptr : nat -> node.
Variable start : nat.
Hypothesis ptrs : forall x, (id (ptr x) < start)%nat /\ size (ptr x) = 8.
Variables (tmp : nat -> Z) (owner : Z -> option nat).
Hypothesis objects : forall r x, valid_range r = true -> within x r -> owner x = None.

Notation bytes := (bytes struct_size).
Notation csz := (calculate_size struct_size).
Notation value_of := (value_of struct_size valid_range).
Notation to_var := (to_var struct_size).
Notation to_address := (to_address struct_size).
Notation variable_cast := (variable_cast struct_size).
Notation evaluated_cast := (evaluated_cast struct_size).

Definition sim (m mu : memory) : Prop := forall x, owner x = None -> mu x = m x.
Definition ready (s : state) (m : memory) : Prop :=
  (forall x, env s (id (ptr x)) = A x) /\ sim m (mem_of s) /\ bytes_ok m /\ bytes_ok (mem_of s).
Definition placed (code : list ins) : Prop := forall d k, In (d, k) (flat_map allocated code) ->
  0 <= tmp d < 2 ^ 64 /\ forall x, within x (tmp d, k) -> owner x = Some d.
Definition frame (n n' : nat) (W : list range) (s s' : state) : Prop :=
  (forall k, (k < n)%nat -> env s' k = env s k)
  /\ (forall x, owner x = None -> (forall d, In d W -> ~ within x d) -> mem_of s' x = mem_of s x)
  /\ (forall x d, owner x = Some d -> (d < n \/ n' <= d)%nat -> mem_of s' x = mem_of s x).
Definition evolves (n n' : nat) (W : list range) (code : list ins) (s : state) (m : memory) (s' : state) (m' : memory) : Prop :=
  steps tmp code s = Ok s' /\ frame n n' W s s' /\ ready s' m'.

Lemma placed_app c1 c2 : placed (c1 ++ c2) -> placed c1 /\ placed c2.
Proof.
  intros P. split; intros d k H; apply P; rewrite flat_map_app; apply in_or_app; tauto.
Qed.
Lemma steps_app c1 c2 s s1 : steps tmp c1 s = Ok s1 -> steps tmp (c1 ++ c2) s = steps tmp c2 s1.
Proof.
  revert s. induction c1 as [|i c1 IH]; intros s H; cbn [steps app] in *.
  - injection H as ->. reflexivity.
  - destruct (step tmp i s); try discriminate. cbn in *. apply IH, H.
Qed.
Lemma evolves_nil n s m : ready s m -> evolves n n [] [] s m s m.
Proof. intros R. split; [reflexivity|]. split; [|exact R]. repeat split; reflexivity. Qed.
Lemma evolves_app n1 n2 n3 W1 W2 c1 c2 s m s1 m1 s2 m2 :
  (n1 <= n2)%nat -> (n2 <= n3)%nat ->
  evolves n1 n2 W1 c1 s m s1 m1 -> evolves n2 n3 W2 c2 s1 m1 s2 m2 ->
  evolves n1 n3 (W1 ++ W2) (c1 ++ c2) s m s2 m2.
Proof.
  intros L1 L2 (S1 & (E1 & M1 & T1) & R1) (S2 & (E2 & M2 & T2) & R2).
  split; [rewrite (steps_app _ _ _ _ S1); exact S2|]. split; [|exact R2]. split; [|split].
  - intros k K. rewrite E2, E1 by lia. reflexivity.
  - intros x X D. rewrite M2, M1; [reflexivity|exact X| |exact X|]; intros d Hd; apply D, in_or_app; tauto.
  - intros x d X D. rewrite (T2 x d X), (T1 x d X) by lia. reflexivity.
Qed.
Lemma evolves_app0 n1 n2 n3 W c1 c2 s m s1 m1 s2 m2 :
  (n1 <= n2)%nat -> (n2 <= n3)%nat ->
  evolves n1 n2 W c1 s m s1 m1 -> evolves n2 n3 [] c2 s1 m1 s2 m2 ->
  evolves n1 n3 W (c1 ++ c2) s m s2 m2.
Proof. intros. rewrite <- (app_nil_r W). eapply evolves_app; eassumption. Qed.

(** A node that is given a value. *)
Lemma evolves_node n i d w s m : id d = n -> (start <= n)%nat -> step tmp i s = Ok (set_node s d w) -> ready s m ->
  evolves n (S n) [] [i] s m (set_node s d w) m.
Proof.
  intros D L St (E & M & B & C). split; [cbn [steps]; rewrite St; reflexivity|]. split.
  - split; [|split; reflexivity]. intros k K. cbn [set_node env].
    destruct (Nat.eqb_spec k (id d)); [lia|reflexivity].
  - split; [|exact (conj M (conj B C))]. intros x. cbn [set_node env].
    destruct (Nat.eqb_spec (id (ptr x)) (id d)) as [Q|_]; [|apply E]. pose proof (ptrs x). lia.
Qed.
Lemma word_set s d w : word (set_node s d w) d = w mod 256 ^ size d.
Proof. unfold word, set_node. cbn [env]. rewrite Nat.eqb_refl. reflexivity. Qed.
Lemma word_keep n n' W c s m s' m' v : evolves n n' W c s m s' m' -> (id v < n)%nat -> word s' v = word s v.
Proof. intros (_ & (E & _) & _) L. apply E, L. Qed.

(** ** What an evaluated expression stands for *)
Definition settled (lo hi : nat) (R : list range) (o : origin) (r : range) : Prop :=
  (In r R /\ (o = Whole r \/ o = Part r)) \/ (exists d, (lo <= d < hi)%nat /\ forall x, within x r -> owner x = Some d).

Definition stands (u : use) (lo hi : nat) (R : list range) (t : ty) (e : evaluated) (s : state) (r : result) : Prop :=
  u = Unused \/
  match r with
  | Void => True
  | Obj a => exists p, kind_of e = EE_POINTER p /\ word s p = a /\ size p = 8 /\ (id p < hi)%nat
  | Bits a f w => exists p, kind_of e = EE_BITFIELD_POINTER p f w (type_is_signed t) /\ word s p = a /\ size p = 8 /\ (id p < hi)%nat
      /\ bits_ok struct_size t f w
  | Val v o =>
      match kind_of e with
      | EE_VOID => False
      | EE_CONSTANT t' w => t' = t /\ w = v
      | EE_VARIABLE x => word s x = v /\ (u = Value -> size x = bytes t) /\ (id x < hi)%nat
      | EE_POINTER p => get (mem_of s) (word s p) (bytes t) = v /\ size p = 8 /\ 0 <= word s p < 2 ^ 64 /\ (id p < hi)%nat
          /\ settled lo hi R o (word s p, bytes t)
      | EE_BITFIELD_POINTER p f w sx => sx = type_is_signed t /\ get_field struct_size t f w (get (mem_of s) (word s p) (bytes t)) = v
          /\ size p = 8 /\ (id p < hi)%nat /\ bits_ok struct_size t f w
          /\ settled lo hi R o (word s p, bytes t) /\ (forall r, o <> Whole r)
      end
  end.

Lemma get_same m mu a n : sim m mu -> valid_range (a, n) = true -> get mu a n = get m a n.
Proof. intros S' V. apply get_ext. intros x X. apply S', (objects _ _ V X). Qed.

(** The value of what is designated. *)
Lemma stands_value u lo hi R t e s r m v R' o :
  stands u lo hi R t e s r -> value_of t r m = Some (v, R', o) -> sim m (mem_of s) ->
  (forall a, r = Obj a -> 0 <= a < 2 ^ 64) ->
  stands u lo hi (R ++ R') t e s (Val v o).
Proof.
  intros [U | H] V S' RG; [left; exact U|]. right.
  destruct r as [|a|a f w|v' o']; cbn [PtrSpec.value_of] in V; try discriminate.
  - destruct (valid_range _) eqn:VR; [|discriminate]. injection V as <- <- <-.
    destruct H as (p & -> & Wp & Sp & Lp). cbn [kind_of]. rewrite Wp.
    split; [exact (get_same _ _ _ _ S' VR)|]. split; [exact Sp|]. split; [exact (RG a eq_refl)|]. split; [exact Lp|].
    left. split; [apply in_or_app; right; left; reflexivity|left; reflexivity].
  - destruct (valid_range _) eqn:VR; [|discriminate]. injection V as <- <- <-.
    destruct H as (p & -> & Wp & Sp & Lp & BO). cbn [kind_of]. rewrite Wp.
    split; [reflexivity|]. split; [rewrite (get_same _ _ _ _ S' VR); reflexivity|]. split; [exact Sp|]. split; [exact Lp|].
    split; [exact BO|]. split.
    + left. split; [apply in_or_app; right; left; reflexivity|right; reflexivity].
    + discriminate.
  - injection V as <- <- <-. rewrite app_nil_r. exact H.
Qed.

Lemma settled_more lo hi lo' hi' R R' o r : settled lo hi R o r -> (lo' <= lo)%nat -> (hi <= hi')%nat ->
  (forall d, In d R -> In d R') -> settled lo' hi' R' o r.
Proof.
  intros [[H1 H2] | (d & D & H)] L1 L2 RR; [left; auto|]. right. exists d. split; [lia|exact H].
Qed.
Lemma stands_more u lo hi lo' hi' R R' t e s r : stands u lo hi R t e s r -> (lo' <= lo)%nat -> (hi <= hi')%nat ->
  (forall d, In d R -> In d R') -> stands u lo' hi' R' t e s r.
Proof.
  intros [U | H] L1 L2 RR; [left; exact U|]. right. destruct r as [|a|a f w|v o].
  - exact I.
  - destruct H as (p & K & Wp & Sp & Lp). exists p. repeat split; try assumption. lia.
  - destruct H as (p & K & Wp & Sp & Lp & BO). exists p. repeat split; try assumption; try lia; apply BO.
  - destruct (kind_of e); try exact H.
    + destruct H as (H1 & H2 & H3). repeat split; try assumption. lia.
    + destruct H as (H1 & H2 & H3 & H4 & H5). split; [exact H1|]. split; [exact H2|]. split; [exact H3|].
      split; [lia|]. exact (settled_more _ _ _ _ _ _ _ _ H5 L1 L2 RR).
    + destruct H as (H1 & H2 & H3 & H4 & H5 & H6 & H7). split; [exact H1|]. split; [exact H2|]. split; [exact H3|].
      split; [lia|]. split; [exact H5|]. split; [exact (settled_more _ _ _ _ _ _ _ _ H6 L1 L2 RR)|exact H7].
Qed.
Lemma stands_kind u lo hi R t e e' s r : stands u lo hi R t e s r -> kind_of e' = kind_of e -> stands u lo hi R t e' s r.
Proof.
  intros [U | H] K; [left; exact U|]. right. destruct r; [exact H|rewrite K; exact H..].
Qed.
Lemma stands_use u lo hi R t e s r : stands Value lo hi R t e s r -> stands u lo hi R t e s r.
Proof.
  intros [U | H]; [discriminate|]. right. destruct r; try exact H. destruct (kind_of e); try exact H.
  destruct H as (H1 & H2 & H3). repeat split; try assumption. intros _. apply H2. reflexivity.
Qed.

(** The object an assignment stores into does not hold the stored value elsewhere. *)
Definition spares (W : list range) (R : list range) (o : origin) (t : ty) (v : Z) (mu' : memory) : Prop :=
  forall r, In r R -> (o = Whole r \/ o = Part r) ->
    (forall d x, In d W -> within x r -> within x d -> False)
    \/ (o = Whole r /\ get mu' (fst r) (snd r) = v).

Lemma stands_keep_gen u lo hi R t e s r n n' W c m s' m' :
  stands u lo hi R t e s r -> evolves n n' W c s m s' m' -> (hi <= n)%nat -> (n <= n')%nat ->
  (forall d, In d R -> valid_range d = true) ->
  (match r with Val v o => spares W R o t v (mem_of s') | _ => True end) ->
  stands u lo n' R t e s' r.
Proof.
  intros [U | H] EV L1 L2 VR SP; [left; exact U|]. right.
  destruct r as [|a|a f w|v o].
  - exact I.
  - destruct H as (p & K & Wp & Sp & Lp). exists p.
    rewrite (word_keep _ _ _ _ _ _ _ _ p EV) by lia. repeat split; try assumption. lia.
  - destruct H as (p & K & Wp & Sp & Lp & BO). exists p.
    rewrite (word_keep _ _ _ _ _ _ _ _ p EV) by lia. repeat split; try assumption; try lia; apply BO.
  - assert (GK : forall p, settled lo hi R o (p, bytes t) ->
       get (mem_of s') p (bytes t) = get (mem_of s) p (bytes t) \/ (o = Whole (p, bytes t) /\ get (mem_of s') p (bytes t) = v)).
    { intros p [[H1 H2] | (d & D & H1)].
      - destruct (SP _ H1 H2) as [X | [X Y]]; [|right; split; [exact X|exact Y]].
        left. apply get_ext. intros x Hx. destruct EV as (_ & (_ & F & _) & _). apply F.
        + exact (objects _ _ (VR _ H1) Hx).
        + intros d Hd Hw. exact (X d x Hd Hx Hw).
      - left. apply get_ext. intros x Hx. destruct EV as (_ & (_ & _ & F) & _). apply (F x d); [exact (H1 x Hx)|lia]. }
    destruct (kind_of e) as [|t' w|x|p|p f w sx]; try exact H.
    + destruct H as (H1 & H2 & H3). rewrite (word_keep _ _ _ _ _ _ _ _ x EV) by lia. repeat split; try assumption. lia.
    + destruct H as (H1 & H2 & H3 & H4 & H5). rewrite (word_keep _ _ _ _ _ _ _ _ p EV) by lia.
      split; [|split; [exact H2|split; [exact H3|split; [lia|]]]].
      * destruct (GK _ H5) as [X | [_ X]]; congruence.
      * eapply settled_more; [exact H5| | |]; auto with arith. lia.
    + destruct H as (H1 & H2 & H3 & H4 & H5 & H6 & H7). rewrite (word_keep _ _ _ _ _ _ _ _ p EV) by lia.
      split; [exact H1|]. split; [|split; [exact H3|split; [lia|split; [exact H5|split; [|exact H7]]]]].
      * destruct (GK _ H6) as [X | [X _]]; [rewrite X; exact H2|]. exfalso. exact (H7 _ X).
      * eapply settled_more; [exact H6| | |]; auto with arith. lia.
Qed.
Lemma stands_keep u lo hi R t e s r n n' W c m s' m' :
  stands u lo hi R t e s r -> evolves n n' W c s m s' m' -> (hi <= n)%nat -> (n <= n')%nat ->
  (forall d, In d R -> valid_range d = true) -> apart W R = true ->
  stands u lo n' R t e s' r.
Proof.
  intros H EV L1 L2 VR AP. eapply stands_keep_gen; try eassumption. destruct r; try exact I.
  intros r Hr _. left. intros d x Hd X Y. exact (apart_not _ _ _ _ _ AP Hd Hr Y X).
Qed.
Lemma stands_keep0 u lo hi R t e s r n n' c m s' m' :
  stands u lo hi R t e s r -> evolves n n' [] c s m s' m' -> (hi <= n)%nat -> (n <= n')%nat ->
  (forall d, In d R -> valid_range d = true) ->
  stands u lo n' R t e s' r.
Proof. intros. eapply stands_keep; try eassumption. reflexivity. Qed.
Lemma place_keep u lo hi R t e s r n n' W c m s' m' :
  stands u lo hi R t e s r -> evolves n n' W c s m s' m' -> (hi <= n)%nat -> (n <= n')%nat ->
  (match r with Val _ _ => False | _ => True end) ->
  stands u lo n' [] t e s' r.
Proof.
  intros H EV L1 L2 NV. eapply stands_keep_gen with (R := []); try eassumption.
  - destruct H as [U | H]; [left; exact U|right]. destruct r; try exact H. destruct NV.
  - intros d [].
  - destruct r; try exact I. destruct NV.
Qed.

(** ** Reading *)
Lemma to_var_ok e n : kind_of e <> EE_VOID -> exists v c n', to_var e n = Ok (v, c, n') /\ (n <= n')%nat.
Proof.
  intros K. unfold PtrExpr.to_var. destruct (kind_of e); try congruence; eexists _, _, _; (split; [reflexivity|]); lia.
Qed.
Definition holds (hi : nat) (s : state) (v : node) (w : Z) : Prop := word s v = w /\ (id v < hi)%nat.
Lemma holds_keep n n' W c s m s' m' hi v w : holds hi s v w -> evolves n n' W c s m s' m' -> (hi <= n)%nat -> (n <= n')%nat ->
  holds n' s' v w.
Proof. intros [H1 H2] EV L1 L2. split; [rewrite (word_keep _ _ _ _ _ _ _ _ v EV) by lia; exact H1|lia]. Qed.

Lemma field_word t f w x : bits_ok struct_size t f w ->
  (if type_is_signed t then signed w ((x / 2 ^ f) mod 2 ^ w) else (x / 2 ^ f) mod 2 ^ w) mod 256 ^ bytes t
  = get_field struct_size t f w x.
Proof.
  intros (I0 & _). unfold get_field, encode. rewrite (signed_same t (integer_scalar _ I0)). reflexivity.
Qed.

Lemma to_var_runs u e n v c n' t lo R s m w o :
  to_var e n = Ok (v, c, n') -> data_type e = t -> stands u lo n R t e s (Val w o) -> u <> Unused ->
  ready s m -> (start <= n)%nat -> 0 <= bytes t -> 0 <= w < 256 ^ bytes t ->
  exists s', evolves n n' [] c s m s' m /\ mem_of s' = mem_of s /\ holds n' s' v w /\ (u = Value -> size v = bytes t).
Proof.
  intros E DT [U | H] NU RD L B RG; [congruence|]. unfold PtrExpr.to_var in E. rewrite DT, csize in E.
  destruct (kind_of e) as [|t' k|x|p|p f wd sx].
  - destruct H.
  - destruct H as [-> ->]. unfold new_node in E. injection E as <- <- <-.
    eexists. split; [refine (evolves_node n _ {| id := n; size := _ |} _ _ _ eq_refl L _ RD); reflexivity|].
    split; [reflexivity|]. split; [|intros _; cbn [size]; apply csize].
    split; [|cbn [id]; lia]. rewrite word_set. cbn [size]. rewrite csize. apply Z.mod_small, RG.
  - destruct H as (H1 & H2 & H3). injection E as <- <- <-.
    exists s. split; [apply evolves_nil, RD|]. split; [reflexivity|]. split; [split; assumption|exact H2].
  - destruct H as (H1 & H2 & H3 & H4 & H5). unfold new_node in E. injection E as <- <- <-.
    eexists. split; [refine (evolves_node n _ {| id := n; size := _ |} _ _ _ eq_refl L _ RD); reflexivity|].
    split; [reflexivity|]. split; [|intros _; reflexivity].
    split; [|cbn [id]; lia]. rewrite word_set. cbn [size]. rewrite H1. apply Z.mod_small, RG.
  - destruct H as (-> & H2 & H3 & H4 & H5 & H6 & H7). unfold gbind, new_node in E. cbn [bind] in E. injection E as <- <- <-.
    set (d := {| id := n; size := bytes t |}).
    assert (EV1 : evolves n (S n) [] [ILoad d p] s m (set_node s d (get (mem_of s) (word s p) (bytes t))) m)
      by (apply evolves_node; [reflexivity|exact L|reflexivity|exact RD]).
    eexists. split; [|split; [|split]].
    + refine (evolves_app0 n (S n) (S (S n)) [] [_] [_] _ _ _ _ _ _ _ _ EV1 _); [lia|lia|].
      refine (evolves_node (S n) _ {| id := S n; size := _ |} _ _ _ eq_refl _ _ (proj2 (proj2 EV1))); [lia|reflexivity].
    + reflexivity.
    + split; [|cbn [id]; lia]. rewrite word_set. cbn [size]. rewrite word_set. cbn [size].
      pose proof (get_range (mem_of s) (word s p) (bytes t) (proj2 (proj2 (proj2 RD))) B) as GR.
      rewrite (Z.mod_small (get _ _ _)) by exact GR. rewrite (field_word t f wd _ H5). exact H2.
    + intros _. reflexivity.
Qed.

(** ** Making an address *)
Lemma to_address_ok e n : kind_of e <> EE_VOID -> exists v c n', to_address e n = Ok (v, c, n') /\ (n <= n')%nat.
Proof.
  intros K. unfold PtrExpr.to_address, PtrExpr.to_var. destruct (kind_of e) eqn:Q; try congruence; eexists _, _, _; (split; [reflexivity|]); lia.
Qed.

(** A value stored into what a node allocates. *)
Lemma store_temp n s m a v t w :
  (id a < n)%nat -> word s a = tmp (id a) -> 0 <= tmp (id a) < 2 ^ 64 -> (forall x, within x (tmp (id a), bytes t) -> owner x = Some (id a)) ->
  ready s m -> 0 <= bytes t -> size v = bytes t -> word s v = w -> 0 <= w < 256 ^ bytes t ->
  exists s', evolves (id a) n [] [IStore a v] s m s' m /\ get (mem_of s') (tmp (id a)) (bytes t) = w
    /\ (forall k, env s' k = env s k).
Proof.
  intros L Wa TR OW (E & SM & B1 & B2) B SV WV RG. eexists. split; [|split].
  - split; [reflexivity|]. split.
    + split; [reflexivity|]. split.
      * intros x X _. cbn [set_memory mem_of]. rewrite SV. apply put_out; [exact B|]. rewrite Wa. intros IN.
        rewrite (OW x IN) in X. discriminate.
      * intros x d X D. cbn [set_memory mem_of]. rewrite SV. apply put_out; [exact B|]. rewrite Wa. intros IN.
        rewrite (OW x IN) in X. injection X as <-. lia.
    + split; [exact E|]. split; [|split; [exact B1|apply put_bytes, B2]].
      intros x X. cbn [set_memory mem_of]. rewrite <- (SM x X). rewrite SV. apply put_out; [exact B|]. rewrite Wa. intros IN.
      rewrite (OW x IN) in X. discriminate.
  - cbn [set_memory mem_of]. rewrite SV, Wa, WV, get_put by exact B. apply Z.mod_small, RG.
  - reflexivity.
Qed.

Lemma frame_weaken n n' k k' W c s m s' m' : evolves n n' W c s m s' m' -> (k <= n)%nat -> (n' <= k')%nat -> evolves k k' W c s m s' m'.
Proof.
  intros (H1 & (F1 & F2 & F3) & H3) L1 L2. split; [exact H1|]. split; [|exact H3].
  split; [intros x X; apply F1; lia|]. split; [exact F2|]. intros x d X D. apply (F3 x d X). lia.
Qed.
Lemma evolves_both n n' c1 c2 s m s1 s2 : evolves n n' [] c1 s m s1 m -> evolves n n' [] c2 s1 m s2 m ->
  (forall k, env s2 k = env s1 k) -> evolves n n' [] (c1 ++ c2) s m s2 m.
Proof.
  intros (S1 & (E1 & M1 & T1) & R1) (S2 & (E2 & M2 & T2) & R2) EE.
  split; [rewrite (steps_app _ _ _ _ S1); exact S2|]. split; [|exact R2]. split; [|split].
  - intros k K. rewrite EE, E1 by lia. reflexivity.
  - intros x X D. rewrite M2, M1; try assumption. reflexivity.
  - intros x d X D. rewrite (T2 x d X), (T1 x d X) by lia. reflexivity.
Qed.

Lemma to_address_runs e n a c n' t lo R s m w o :
  to_address e n = Ok (a, c, n') -> data_type e = t -> stands Value lo n R t e s (Val w o) -> 
  ready s m -> (start <= n)%nat -> (lo <= n)%nat -> 0 <= bytes t -> 0 <= w < 256 ^ bytes t -> placed c ->
  (forall d, In d R -> valid_range d = true) ->
  exists s', evolves n n' [] c s m s' m /\ size a = 8 /\ 0 <= word s' a < 2 ^ 64 /\ (id a < n')%nat
    /\ get (mem_of s') (word s' a) (bytes t) = w
    /\ settled lo n' R o (word s' a, bytes t).
Proof.
  intros E DT ST RD L LO B RG PL VR.
  assert (ALLOC : forall k s0, (start <= k)%nat -> ready s0 m ->
     (exists l, c = l ++ [IAlloc {| id := k; size := 8 |} (bytes t)] \/ exists l', c = l ++ [IAlloc {| id := k; size := 8 |} (bytes t)] ++ l') ->
     evolves k (S k) [] [IAlloc {| id := k; size := 8 |} (bytes t)] s0 m (set_node s0 {| id := k; size := 8 |} (tmp k)) m
     /\ word (set_node s0 {| id := k; size := 8 |} (tmp k)) {| id := k; size := 8 |} = tmp k
     /\ 0 <= tmp k < 2 ^ 64 /\ (forall x, within x (tmp k, bytes t) -> owner x = Some k)).
  { intros k s0 Lk R0 HC.
    assert (IN : In (k, bytes t) (flat_map allocated c)).
    { destruct HC as [l [-> | [l' ->]]]; rewrite !flat_map_app, !in_app_iff; cbn; tauto. }
    destruct (PL _ _ IN) as [P1 P2]. split; [|split; [|split; [exact P1|exact P2]]].
    - refine (evolves_node k _ {| id := k; size := _ |} _ _ _ eq_refl Lk _ R0); reflexivity.
    - rewrite word_set. cbn [size]. apply Z.mod_small. rewrite p64. exact P1. }
  unfold PtrExpr.to_address in E. rewrite DT, csize in E.
  destruct (kind_of e) as [|t' k|x|p|p f wd sx] eqn:K.
  - discriminate.
  - destruct ST as [ST|ST]; [discriminate|]. rewrite K in ST. destruct ST as [-> ->].
    unfold PtrExpr.to_var, gbind, new_node, emit, ret in E. rewrite K in E. cbn [bind app] in E. injection E as <- <- <-.
    destruct (ALLOC n s L RD) as (EV1 & W1 & T1 & T2).
    { exists []. right. eexists. reflexivity. }
    set (s1 := set_node s {| id := n; size := 8 |} (tmp n)) in *.
    assert (R1 : ready s1 m) by (apply EV1).
    assert (EV2 : evolves (S n) (S (S n)) [] [IConst {| id := S n; size := csz t |} w] s1 m
       (set_node s1 {| id := S n; size := csz t |} w) m)
      by (refine (evolves_node (S n) _ {| id := S n; size := _ |} _ _ _ eq_refl _ _ R1); [lia|reflexivity]).
    set (s2 := set_node s1 {| id := S n; size := csz t |} w) in *.
    destruct (store_temp (S (S n)) s2 m {| id := n; size := 8 |} {| id := S n; size := csz t |} t w) as (s3 & EV3 & G3 & E3); cbn [id size].
    + lia.
    + rewrite (word_keep _ _ _ _ _ _ _ _ _ EV2) by (cbn [id]; lia). exact W1.
    + exact T1.
    + exact T2.
    + apply EV2.
    + exact B.
    + apply csize.
    + unfold s2. rewrite word_set. cbn [size]. rewrite csize. apply Z.mod_small, RG.
    + exact RG.
    + cbn [id] in EV3, G3.
      assert (W3 : word s3 {| id := n; size := 8 |} = tmp n).
      { unfold word. rewrite E3. fold (word s2 {| id := n; size := 8 |}).
        rewrite (word_keep _ _ _ _ _ _ _ _ _ EV2) by (cbn [id]; lia). exact W1. }
      exists s3. split.
      { eapply (evolves_both n _ ([IAlloc _ _] ++ [IConst _ _]) [IStore _ _] s m s2 s3); [|exact EV3|exact E3].
        eapply evolves_app0; [| |exact EV1|exact EV2]; lia. }
      rewrite W3. split; [reflexivity|]. split; [exact T1|]. split; [cbn [id]; lia|]. split; [exact G3|].
      right. exists n. split; [lia|exact T2].
  - destruct ST as [ST|ST]; [discriminate|]. rewrite K in ST. destruct ST as (X1 & X2 & X3).
    unfold gbind, new_node, emit, ret in E. cbn [bind app] in E. injection E as <- <- <-.
    destruct (ALLOC n s L RD) as (EV1 & W1 & T1 & T2).
    { exists []. right. eexists. reflexivity. }
    set (s1 := set_node s {| id := n; size := 8 |} (tmp n)) in *.
    assert (R1 : ready s1 m) by (apply EV1).
    destruct (store_temp (S n) s1 m {| id := n; size := 8 |} x t w) as (s3 & EV3 & G3 & E3); cbn [id size]; try assumption.
    + lia.
    + apply X2. reflexivity.
    + rewrite (word_keep _ _ _ _ _ _ _ _ _ EV1) by exact X3. exact X1.
    + cbn [id] in EV3, G3.
      assert (W3 : word s3 {| id := n; size := 8 |} = tmp n).
      { unfold word. rewrite E3. exact W1. }
      exists s3. split.
      { eapply (evolves_both n _ [IAlloc _ _] [IStore _ _] s m s1 s3); [exact EV1|exact EV3|exact E3]. }
      rewrite W3. split; [reflexivity|]. split; [exact T1|]. split; [cbn [id]; lia|]. split; [exact G3|].
      right. exists n. split; [lia|exact T2].
  - destruct ST as [ST|ST]; [discriminate|]. rewrite K in ST. destruct ST as (X1 & X2 & X3 & X4 & X5).
    injection E as <- <- <-. exists s. split; [apply evolves_nil, RD|]. split; [exact X2|]. split; [exact X3|].
    split; [exact X4|]. split; [exact X1|exact X5].
  - unfold gbind in E.
    destruct (PtrExpr.to_var struct_size e n) as [[[v c1] n1]| |] eqn:TV; try discriminate. cbn [bind] in E.
    unfold new_node, emit, ret in E. cbn [bind app] in E. injection E as <- <- <-.
    assert (LE : (n <= n1)%nat).
    { assert (KV : kind_of e <> EE_VOID) by congruence. destruct (to_var_ok e n KV) as (v0 & c0 & n0 & E0 & L0).
      unfold PtrExpr.to_var in *. congruence. }
    destruct (to_var_runs Value e n v c1 n1 t lo R s m w o TV DT ST ltac:(discriminate) RD L B RG) as (s0 & EV0 & M0 & HV & SV).
    destruct (ALLOC n1 s0 ltac:(lia) (proj2 (proj2 EV0))) as (EV1 & W1 & T1 & T2).
    { eexists. right. eexists. reflexivity. }
    set (s1 := set_node s0 {| id := n1; size := 8 |} (tmp n1)) in *.
    assert (R1 : ready s1 m) by (apply EV1).
    destruct (store_temp (S n1) s1 m {| id := n1; size := 8 |} v t w) as (s3 & EV3 & G3 & E3); cbn [id size]; try assumption.
    + lia.
    + apply SV. reflexivity.
    + rewrite (word_keep _ _ _ _ _ _ _ _ _ EV1) by apply HV. apply HV.
    + cbn [id] in EV3, G3.
      assert (W3 : word s3 {| id := n1; size := 8 |} = tmp n1).
      { unfold word. rewrite E3. exact W1. }
      exists s3. split.
      { eapply (evolves_app0 n n1 (S n1) [] c1 ([IAlloc _ _] ++ [IStore _ _]) s m s0 m s3 m); [lia|lia|exact EV0|].
        eapply (evolves_both n1 (S n1) [IAlloc _ _] [IStore _ _] s0 m s1 s3); [exact EV1|exact EV3|exact E3]. }
      rewrite W3. split; [reflexivity|]. split; [exact T1|]. split; [cbn [id]; lia|]. split; [exact G3|].
      right. exists n1. split; [lia|exact T2].
Qed.

(** ** Conversions *)
Lemma variable_cast_ok v a b n : exists d c n', variable_cast v a b n = Ok (d, c, n') /\ (n <= n')%nat.
Proof.
  unfold PtrExpr.variable_cast, new_node, ret.
  destruct (ty_eqb a b); [eexists _, _, _; split; [reflexivity|lia]|].
  destruct b as [|[]| | |]; destruct a; try (destruct (_ =? _)); eexists _, _, _; (split; [reflexivity|]); lia.
Qed.
Definition converted (a b : ty) (w : Z) : Z := if ty_eqb a b then w else convert struct_size a b w.

Lemma variable_cast_runs v a b n d c n' s m w :
  variable_cast v a b n = Ok (d, c, n') -> scalar a -> scalar b -> holds n s v w -> size v = bytes a ->
  0 <= w < 256 ^ bytes a -> ready s m -> (start <= n)%nat ->
  exists s', evolves n n' [] c s m s' m /\ mem_of s' = mem_of s /\ holds n' s' d (converted a b w) /\ size d = bytes b.
Proof.
  intros E SA SB HV SV RG RD L. unfold PtrExpr.variable_cast in E. unfold converted.
  destruct (ty_eqb a b) eqn:Q.
  { apply ty_eqb_eq in Q. subst b. injection E as <- <- <-.
    exists s. split; [apply evolves_nil, RD|]. split; [reflexivity|]. split; [exact HV|exact SV]. }
  destruct (is_bool b) eqn:IB.
  - apply is_bool_eq in IB. subst b. unfold new_node in E. injection E as <- <- <-.
    eexists. split; [refine (evolves_node n _ {| id := n; size := _ |} _ _ _ eq_refl L _ RD); reflexivity|].
    split; [reflexivity|]. split; [|reflexivity]. split; [|cbn [id]; lia]. rewrite word_set. cbn [size].
    rewrite (proj1 HV). unfold convert. cbn [is_bool]. destruct (w =? 0); reflexivity.
  - assert (E' : (if csz b =? csz a then ret v else new_node (csz b) (fun d => ICast (type_is_signed a) d v)) n = Ok (d, c, n')).
    { destruct b as [|tb|tb| |]; try (destruct SB; fail); destruct a as [|ta|ta| |]; try (destruct SA; fail); try exact E;
        destruct tb; try exact E; discriminate IB. }
    clear E. rewrite !csize in E'.
    pose proof (scalar_bytes struct_size a SA) as BA. pose proof (scalar_bytes struct_size b SB) as BB.
    unfold convert. rewrite IB. unfold encode.
    destruct (Z.eqb_spec (bytes b) (bytes a)) as [EQ|NE].
    + injection E' as <- <- <-. exists s. split; [apply evolves_nil, RD|]. split; [reflexivity|].
      split; [|congruence]. rewrite EQ, integer_cong by lia. rewrite Z.mod_small by exact RG. exact HV.
    + unfold new_node in E'. injection E' as <- <- <-.
      eexists. split; [refine (evolves_node n _ {| id := n; size := _ |} _ _ _ eq_refl L _ RD); reflexivity|].
      split; [reflexivity|]. split; [|reflexivity]. split; [|cbn [id]; lia]. rewrite word_set. cbn [size].
      rewrite (proj1 HV), SV. rewrite (signed_same a SA). unfold integer. reflexivity.
Qed.

Lemma converted_range a b w : scalar b -> 0 <= w < 256 ^ bytes a -> 0 <= converted a b w < 256 ^ bytes b.
Proof.
  intros SB RG. unfold converted. destruct (ty_eqb a b) eqn:Q; [apply ty_eqb_eq in Q; subst; exact RG|].
  apply convert_range, SB.
Qed.

Lemma evaluated_cast_ok e t n : kind_of e <> EE_VOID \/ t = TVoid -> exists r c n', evaluated_cast e t n = Ok (r, c, n') /\ (n <= n')%nat
  /\ data_type r = t /\ (kind_of r = EE_VOID -> t = TVoid \/ kind_of e = EE_VOID)
  /\ (forall t' w, kind_of r = EE_CONSTANT t' w -> data_type e = t /\ kind_of e = EE_CONSTANT t' w)
  /\ (forall p f w sx, kind_of r = EE_BITFIELD_POINTER p f w sx -> data_type e = t /\ kind_of e = EE_BITFIELD_POINTER p f w sx).
Proof.
  intros K. unfold PtrExpr.evaluated_cast. destruct (ty_eqb (data_type e) t) eqn:Q.
  { apply ty_eqb_eq in Q. eexists _, _, _. split; [reflexivity|]. repeat split; try lia; auto. }
  assert (NV : t = TVoid \/ t <> TVoid) by (destruct t; first [left; reflexivity | right; discriminate]).
  destruct NV as [-> | NV].
  { eexists _, _, _. split; [reflexivity|]. cbn [kind_of data_type]. repeat split; try lia; auto; discriminate. }
  destruct K as [K | K]; [|congruence].
  destruct (to_var_ok e n K) as (v & c1 & n1 & E1 & L1).
  destruct (variable_cast_ok v (data_type e) t n1) as (d & c2 & n2 & E2 & L2).
  exists {| kind_of := EE_VARIABLE d; data_type := t |}, (c1 ++ c2 ++ []), n2.
  split; [|cbn [kind_of data_type]; repeat split; try lia; auto; discriminate].
  assert (H : (do v0 <- to_var e; do r <- variable_cast v0 (data_type e) t; ret {| kind_of := EE_VARIABLE r; data_type := t |}) n
     = Ok ({| kind_of := EE_VARIABLE d; data_type := t |}, c1 ++ c2 ++ [], n2)).
  { unfold gbind. rewrite E1. cbn [bind]. rewrite E2. reflexivity. }
  destruct t; try exact H. congruence.
Qed.

Lemma evaluated_cast_runs e t0 t n r c n' lo R s m w o :
  evaluated_cast e t n = Ok (r, c, n') -> data_type e = t0 -> stands Value lo n R t0 e s (Val w o) ->
  (t0 = t /\ plain_value t) \/ (scalar t0 /\ scalar t) ->
  ready s m -> (start <= n)%nat -> 0 <= w < 256 ^ bytes t0 -> (forall d, In d R -> valid_range d = true) ->
  exists s', evolves n n' [] c s m s' m /\ mem_of s' = mem_of s
    /\ stands Value lo n' R t r s' (Val (converted t0 t w) (if ty_eqb t0 t then o else Nowhere)).
Proof.
  intros E DT ST TT RD L RG VR. unfold PtrExpr.evaluated_cast in E. rewrite DT in E. unfold converted.
  destruct (ty_eqb t0 t) eqn:Q.
  { apply ty_eqb_eq in Q. subst t. injection E as <- <- <-. exists s. split; [apply evolves_nil, RD|]. split; [reflexivity|exact ST]. }
  destruct TT as [[-> _] | [S0 S1]]; [rewrite (proj2 (ty_eqb_eq t t) eq_refl) in Q; discriminate|].
  assert (E' : (do v0 <- to_var e; do r <- variable_cast v0 t0 t; ret {| kind_of := EE_VARIABLE r; data_type := t |}) n = Ok (r, c, n')).
  { destruct t; try exact E. destruct S1. }
  clear E. unfold gbind in E'.
  destruct (PtrExpr.to_var struct_size e n) as [[[v c1] n1]| |] eqn:TV; try discriminate. cbn [bind] in E'.
  destruct (PtrExpr.variable_cast struct_size v t0 t n1) as [[[d c2] n2]| |] eqn:VC; try discriminate. cbn [bind ret] in E'.
  injection E' as <- <- <-.
  pose proof (scalar_bytes struct_size t0 S0) as B0.
  destruct (to_var_runs Value e n v c1 n1 t0 lo R s m w o TV DT ST ltac:(discriminate) RD L ltac:(lia) RG) as (s1 & EV1 & M1 & H1 & Z1).
  assert (L1 : (n <= n1)%nat).
  { assert (KV : kind_of e <> EE_VOID) by (intros KV; unfold PtrExpr.to_var in TV; rewrite KV in TV; discriminate).
    destruct (to_var_ok e n KV) as (v0 & c0 & n0 & E0 & L0). rewrite TV in E0. injection E0 as <- <- <-. exact L0. }
  destruct (variable_cast_runs v t0 t n1 d c2 n2 s1 m w VC S0 S1 H1 (Z1 eq_refl) RG (proj2 (proj2 EV1)) ltac:(lia)) as (s2 & EV2 & M2 & H2 & Z2).
  assert (L2 : (n1 <= n2)%nat).
  { destruct (variable_cast_ok v t0 t n1) as (d0 & c0 & n0 & E0 & L0). rewrite VC in E0. injection E0 as <- <- <-. exact L0. }
  exists s2. rewrite app_nil_r. split; [eapply evolves_app0; [| |exact EV1|exact EV2]; lia|]. split; [congruence|].
  right. cbn [kind_of]. unfold converted in H2. rewrite Q in H2. destruct H2 as [H2 H3].
  repeat split; try assumption. intros _. exact Z2.
Qed.

(** ** Operators and stores *)
Lemma seq n1 n2 n3 W1 W2 c1 c2 s m s1 m1 s2 m2 :
  evolves n1 n2 W1 c1 s m s1 m1 -> (n1 <= n2)%nat -> (n2 <= n3)%nat -> evolves n2 n3 W2 c2 s1 m1 s2 m2 ->
  evolves n1 n3 (W1 ++ W2) (c1 ++ c2) s m s2 m2.
Proof. intros H1 L1 L2 H2. exact (evolves_app _ _ _ _ _ _ _ _ _ _ _ _ _ L1 L2 H1 H2). Qed.
Lemma seq0 n1 n2 n3 W c1 c2 s m s1 m1 s2 m2 :
  evolves n1 n2 W c1 s m s1 m1 -> (n1 <= n2)%nat -> (n2 <= n3)%nat -> evolves n2 n3 [] c2 s1 m1 s2 m2 ->
  evolves n1 n3 W (c1 ++ c2) s m s2 m2.
Proof. intros H1 L1 L2 H2. exact (evolves_app0 _ _ _ _ _ _ _ _ _ _ _ _ L1 L2 H1 H2). Qed.
Lemma seqr n1 n2 n3 W c1 c2 s m s1 m1 s2 m2 :
  evolves n1 n2 [] c1 s m s1 m1 -> (n1 <= n2)%nat -> (n2 <= n3)%nat -> evolves n2 n3 W c2 s1 m1 s2 m2 ->
  evolves n1 n3 W (c1 ++ c2) s m s2 m2.
Proof. intros H1 L1 L2 H2. exact (evolves_app _ _ _ [] W _ _ _ _ _ _ _ _ L1 L2 H1 H2). Qed.
Lemma finish n n' W c s m s' m' : evolves n n' W c s m s' m' -> evolves n n' W (c ++ []) s m s' m'.
Proof. rewrite app_nil_r. exact (fun H => H). Qed.
Lemma rd n n' W c s m s' m' : evolves n n' W c s m s' m' -> ready s' m'.
Proof. intros H. exact (proj2 (proj2 H)). Qed.

Lemma gbind_ok X Y (x : gen X) (f : X -> gen Y) n a c n1 b c' n2 :
  x n = Ok (a, c, n1) -> f a n1 = Ok (b, c', n2) -> gbind x f n = Ok (b, c ++ c', n2).
Proof. intros H1 H2. unfold gbind. rewrite H1. cbn [bind]. rewrite H2. reflexivity. Qed.

(** A new node with the value [w]. *)
Lemma node_runs n d f w s m : id d = n -> (start <= n)%nat -> step tmp (f d) s = Ok (set_node s d w) -> ready s m ->
  exists s', evolves n (S n) [] [f d] s m s' m /\ mem_of s' = mem_of s /\ holds (S n) s' d (w mod 256 ^ size d).
Proof.
  intros D L H R. exists (set_node s d w). split; [apply evolves_node; assumption|]. split; [reflexivity|].
  split; [apply word_set|lia].
Qed.

Lemma binary_node_ok t op a b n : (arithmetic op /\ promoted t) \/ (comparison op = true /\ (promoted t \/ exists u, t = TPtr u)) ->
  exists d c, binary_node t op a b n = Ok (d, c, S n).
Proof.
  intros H. destruct (op_chosen struct_size t op ltac:(tauto) ltac:(tauto)) as (o & E & _).
  unfold binary_node. rewrite E. eexists _, _. reflexivity.
Qed.
Lemma binary_node_runs t op a b n d c n' s m va vb v :
  binary_node t op a b n = Ok (d, c, n') ->
  (arithmetic op /\ promoted t) \/ (comparison op = true /\ (promoted t \/ exists u, t = TPtr u)) ->
  holds n s a va -> holds n s b vb -> size a = bytes t ->
  0 <= va < 256 ^ bytes t -> 0 <= vb < 256 ^ bytes t -> operate struct_size t op va vb = Some v -> ready s m -> (start <= n)%nat ->
  exists s', evolves n n' [] c s m s' m /\ mem_of s' = mem_of s /\ holds n' s' d v /\ size d = bytes t /\ n' = S n.
Proof.
  intros E O HA HB SA RA RB OP RD L.
  destruct (op_chosen struct_size t op ltac:(tauto) ltac:(tauto)) as (o & E1 & E2).
  unfold binary_node in E. rewrite E1 in E. unfold new_node in E. cbn [bind] in E. injection E as <- <- <-.
  destruct (E2 va vb) as [EA EC]. unfold ir_binary_op_size. rewrite SA.
  assert (B : 0 < bytes t).
  { destruct O as [[_ P] | [_ [P | [u ->]]]]; [pose proof (promoted_bytes struct_size t P); lia..|reflexivity]. }
  assert (Q : exists z, ir_value (ir_binary_op o) (bytes t) va vb = Ok z /\ z mod 256 ^ bytes t = v).
  { destruct O as [[O P] | [C P]].
    - eexists. split; [exact (EA O)|]. symmetry. exact (op_arith struct_size t op va vb v P O OP).
    - destruct (EC C RA RB) as (v' & E3 & E4 & E5). rewrite OP in E3. injection E3 as <-. exists v. split; [exact E4|].
      apply Z.mod_small. assert (1 < 256 ^ bytes t) by (change 1 with (256 ^ 0); apply Z.pow_lt_mono_r; lia). lia. }
  destruct Q as (z & Q1 & Q2).
  destruct (node_runs n {| id := n; size := bytes t |} (fun d => IBin (ir_binary_op o) d a b) z s m eq_refl L) as (s' & EV & M' & H'); [|exact RD|].
  { cbn [step]. rewrite SA, (proj1 HA), (proj1 HB), Q1. reflexivity. }
  exists s'. split; [exact EV|]. split; [exact M'|]. split; [|split; reflexivity].
  cbn [size] in H'. rewrite Q2 in H'. exact H'.
Qed.

Lemma assign_to_ok l v n : (exists p, kind_of l = EE_POINTER p) \/ (exists p f w sx, kind_of l = EE_BITFIELD_POINTER p f w sx) ->
  exists c n', assign_to l v n = Ok (tt, c, n') /\ (n <= n')%nat.
Proof.
  intros [[p K] | (p & f & w & sx & K)]; unfold assign_to; rewrite K; eexists _, _; (split; [reflexivity|]); lia.
Qed.

Lemma put_sim m mu a n v : sim m mu -> 0 <= n -> sim (put m a n v) (put mu a n v).
Proof. intros S' N x X. apply put_same; [exact N|]. intros _. apply S', X. Qed.

(** Storing a word into an object. *)
Lemma store_runs n p v s m a k w : word s p = a -> word s v = w -> size v = k -> 0 <= k -> ready s m ->
  valid_range (a, k) = true ->
  exists s', evolves n n [(a, k)] [IStore p v] s m s' (put m a k w).
Proof.
  intros Wp Wv Sv K (E & SM & B1 & B2) VR. eexists. split; [reflexivity|]. rewrite Wp, Wv, Sv. split.
  - split; [reflexivity|]. split.
    + intros x X D. cbn [set_memory mem_of]. apply put_out; [exact K|]. apply D. left. reflexivity.
    + intros x d X D. cbn [set_memory mem_of]. apply put_out; [exact K|]. intros IN.
      rewrite (objects _ _ VR IN) in X. discriminate.
  - split; [exact E|]. split; [apply put_sim; assumption|]. split; apply put_bytes; assumption.
Qed.

Lemma put_mod m a n v x : 0 <= n -> put m a n (v mod 256 ^ n) x = put m a n v x.
Proof.
  intros N. destruct (Z_le_gt_dec a x) as [L1|L1]; [destruct (Z_lt_ge_dec x (a + n)) as [L2|L2]|].
  2,3: rewrite !put_out; try reflexivity; try exact N; unfold within; cbn [fst snd]; lia.
  rewrite !put_in; try exact N; try (unfold within; cbn [fst snd]; lia).
  replace (256 ^ n) with (256 ^ (x - a) * (256 ^ (n - (x - a) - 1) * 256)).
  2:{ change 256 with (256 ^ 1) at 3. rewrite <- !Z.pow_add_r by lia. f_equal. lia. }
  rewrite Z.rem_mul_r; try (apply Z.pow_nonzero; lia).
  2:{ apply Z.mul_pos_pos; [apply Z.pow_pos_nonneg|]; lia. }
  rewrite Z.mul_comm, Z.div_add by (apply Z.pow_nonzero; lia).
  rewrite (Z.div_small (v mod 256 ^ (x - a))) by (apply Z.mod_pos_bound, Z.pow_pos_nonneg; lia). rewrite Z.add_0_l.
  rewrite (Z.mul_comm (256 ^ (n - (x - a) - 1))).
  rewrite Z.rem_mul_r by first [lia | apply Z.pow_pos_nonneg; lia].
  rewrite Z.add_mod, Z.mul_comm, Z.mod_mul, Z.add_0_r, !Z.mod_mod by lia. reflexivity.
Qed.
Lemma evolves_ext n n' W c s m s' m1 m2 : (forall x, m2 x = m1 x) -> evolves n n' W c s m s' m1 -> evolves n n' W c s m s' m2.
Proof.
  intros EX (H1 & H2 & (E & SM & B1 & B2)). split; [exact H1|]. split; [exact H2|]. split; [exact E|].
  split; [intros x X; rewrite EX; apply SM, X|]. split; [intros x; rewrite EX; apply B1|exact B2].
Qed.

Lemma assign_to_runs l v n c n' t lo r s m w m' R W :
  assign_to l v n = Ok (tt, c, n') -> stands Value lo n [] t l s r -> holds n s v w -> size v = bytes t ->
  0 <= bytes t -> assign struct_size valid_range t r m w = Some (m', R, W) -> ready s m -> (start <= n)%nat ->
  exists s', evolves n n' W c s m s' m'.
Proof.
  intros E [U | ST] HV SV B AS RD L; [discriminate|]. unfold assign_to in E.
  destruct r as [|a|a f wd|v' o']; cbn [assign] in AS; try discriminate;
    destruct (valid_range _) eqn:VR; try discriminate; injection AS as <- <- <-.
  - destruct ST as (p & K & Wp & Sp & Lp). rewrite K in E. injection E as <- <-.
    apply store_runs; try assumption. apply HV.
  - destruct ST as (p & K & Wp & Sp & Lp & BO). rewrite K in E.
    unfold gbind, new_node, emit in E. cbn [bind app size] in E. injection E as <- <-. rewrite SV in *.
    destruct (node_runs n {| id := n; size := bytes t |} (fun d => ILoad d p) (get (mem_of s) a (bytes t)) s m eq_refl L) as (s1 & EV1 & M1 & H1);
      [cbn [step size]; rewrite Wp; reflexivity|exact RD|].
    cbn [size] in H1.
    assert (GR : 0 <= get (mem_of s) a (bytes t) < 256 ^ bytes t) by (apply get_range; [apply RD|exact B]).
    rewrite Z.mod_small in H1 by exact GR.
    assert (GE : get (mem_of s) a (bytes t) = get m a (bytes t)) by (apply get_same; [apply RD|exact VR]).
    set (old := get (mem_of s) a (bytes t)) in *.
    destruct (node_runs (S n) {| id := S n; size := bytes t |} (fun d => ISet d {| id := n; size := bytes t |} v f wd)
       (put_field f wd old w) s1 m eq_refl ltac:(lia)) as (s2 & EV2 & M2 & H2).
    { cbn [step]. rewrite (proj1 H1). rewrite (word_keep _ _ _ _ _ _ _ _ v EV1) by apply HV. rewrite (proj1 HV). reflexivity. }
    { exact (rd _ _ _ _ _ _ _ _ EV1). }
    cbn [size] in H2.
    assert (WP : word s2 p = a).
    { rewrite (word_keep _ _ _ _ _ _ _ _ p EV2) by lia. rewrite (word_keep _ _ _ _ _ _ _ _ p EV1) by lia. exact Wp. }
    destruct (store_runs (S (S n)) p {| id := S n; size := bytes t |} s2 m a (bytes t) _ WP (proj1 H2) eq_refl B (rd _ _ _ _ _ _ _ _ EV2) VR) as (s3 & EV3).
    exists s3. rewrite <- GE.
    apply (evolves_ext _ _ _ _ _ _ _ _ (put m a (bytes t) (put_field f wd old w))) in EV3;
      [|intros x; symmetry; apply put_mod, B].
    refine (seqr _ (S n) _ _ [_] _ _ _ _ _ _ _ EV1 _ _ _); [lia|lia|].
    refine (seqr _ (S (S n)) _ _ [_] _ _ _ _ _ _ _ EV2 _ _ EV3); lia.
Qed.

Lemma assign_ee_ok l r n : kind_of r <> EE_VOID ->
  (exists p, kind_of l = EE_POINTER p) \/ ((exists p f w sx, kind_of l = EE_BITFIELD_POINTER p f w sx) /\ bytes (data_type r) <= 8) ->
  exists c n', assign_ee struct_size l r n = Ok (tt, c, n') /\ (n <= n')%nat.
Proof.
  intros KR KL. unfold assign_ee. rewrite csize.
  destruct (Z.leb_spec (bytes (data_type r)) 8) as [LE|GT].
  - destruct (to_var_ok r n KR) as (v & c1 & n1 & E1 & L1).
    destruct (assign_to_ok l v n1 ltac:(tauto)) as (c2 & n2 & E2 & L2).
    eexists _, _. split; [exact (gbind_ok _ _ _ _ _ _ _ _ _ _ _ E1 E2)|lia].
  - destruct (to_address_ok r n KR) as (v & c1 & n1 & E1 & L1).
    destruct KL as [[p K] | [_ K]]; [|lia]. eexists _, _. split; [|exact L1].
    refine (gbind_ok _ _ _ _ _ _ _ _ _ _ _ E1 _). rewrite K. reflexivity.
Qed.

Lemma assign_ee_runs l r n c n' t lo lo' R0 s m w o rr m' R W :
  assign_ee struct_size l r n = Ok (tt, c, n') -> data_type l = t -> data_type r = t -> kind_of r <> EE_VOID ->
  stands Value lo n [] t l s rr -> stands Value lo' n R0 t r s (Val w o) -> (lo' <= n)%nat ->
  0 <= bytes t -> 0 <= w < 256 ^ bytes t -> (forall d, In d R0 -> valid_range d = true) -> placed c ->
  assign struct_size valid_range t rr m w = Some (m', R, W) -> ready s m -> (start <= n)%nat ->
  exists s', evolves n n' W c s m s' m'.
Proof.
  intros E DL DR KR SL SR LO B RG VR0 PL AS RD L. unfold assign_ee in E. rewrite csize, DR in E.
  assert (PLC : match rr with Val _ _ => False | Void => False | _ => True end)
    by (destruct rr; cbn [assign] in AS; try discriminate; exact I).
  destruct (Z.leb_spec (bytes t) 8) as [LE|GT].
  - destruct (to_var_ok r n KR) as (v & c1 & n1 & E1 & L1).
    unfold gbind in E. rewrite E1 in E. cbn [bind] in E.
    destruct (assign_to l v n1) as [[[[] c2] n2]| |] eqn:E2; try discriminate. cbn [bind] in E. injection E as <- <-.
    destruct (to_var_runs Value r n v c1 n1 t lo' R0 s m w o E1 DR SR ltac:(discriminate) RD L B RG) as (s1 & EV1 & M1 & H1 & Z1).
    assert (SL1 : stands Value lo n1 [] t l s1 rr).
    { eapply place_keep; [exact SL|exact EV1|lia|lia|]. destruct rr; try exact I; destruct PLC. }
    destruct (assign_to_runs l v n1 c2 n2 t lo rr s1 m w m' R W E2 SL1 H1 (Z1 eq_refl) B AS (rd _ _ _ _ _ _ _ _ EV1) ltac:(lia)) as (s2 & EV2).
    exists s2. refine (seqr _ _ _ _ _ _ _ _ _ _ _ _ EV1 _ _ EV2); [lia|].
    unfold assign_to in E2. destruct (kind_of l); try discriminate;
      unfold gbind, new_node, emit in E2; cbn [bind app] in E2; injection E2 as _ <-; lia.
  - destruct (to_address_ok r n KR) as (v & c1 & n1 & E1 & L1).
    unfold gbind in E. rewrite E1 in E. cbn [bind] in E. rewrite csize, DL in E.
    destruct (kind_of l) as [| | |p|] eqn:KL; try discriminate. cbn [emit bind] in E. injection E as <- <-.
    destruct (placed_app _ _ PL) as [PL1 _].
    destruct (to_address_runs r n v c1 n1 t lo' R0 s m w o E1 DR SR RD L LO B RG PL1 VR0) as (s1 & EV1 & Z1 & W1 & D1 & G1 & _).
    assert (SL1 : stands Value lo n1 [] t l s1 rr).
    { eapply place_keep; [exact SL|exact EV1|lia|lia|]. destruct rr; try exact I; destruct PLC. }
    destruct SL1 as [SL1|SL1]; [discriminate|].
    destruct rr as [|a|a f wd|]; try (destruct PLC).
    2:{ destruct SL1 as (p' & K & _). congruence. }
    destruct SL1 as (p' & K & Wp & _). rewrite KL in K. injection K as <-.
    cbn [assign] in AS. destruct (valid_range _) eqn:VR; [|discriminate]. injection AS as <- <- <-.
    destruct (rd _ _ _ _ _ _ _ _ EV1) as (E' & SM & B1 & B2).
    eexists. refine (seqr _ _ _ _ _ _ _ _ _ _ _ _ EV1 _ _ _); [lia|lia|].
    split; [reflexivity|]. rewrite Wp, G1. split.
    + split; [reflexivity|]. split.
      * intros x X D. cbn [set_memory mem_of]. apply put_out; [exact B|]. apply D. left. reflexivity.
      * intros x d X D. cbn [set_memory mem_of]. apply put_out; [exact B|]. intros IN.
        rewrite (objects _ _ VR IN) in X. discriminate.
    + split; [exact E'|]. split; [apply put_sim; assumption|]. split; apply put_bytes; assumption.
Qed.

(** ** Expressions *)
Notation etype := (etype G fields).
Notation eval := (eval G A fields struct_size valid_range).
Notation typed := (typed G A fields struct_size).
Notation yields := (yields struct_size valid_range).
Notation bit_field := (bit_field G fields).
Notation yields_constant := (yields_constant G fields).
Notation covered := (covered G fields struct_size).
Notation evaluate := (evaluate G fields struct_size ptr).
Notation sound := (sound valid_range).
Notation result_ok := (result_ok G fields struct_size).

Definition shape (e : expr) (ee : evaluated) : Prop :=
  (designates e -> bit_field e = false -> exists p, kind_of ee = EE_POINTER p)
  /\ (bit_field e = true -> exists p f w sx, kind_of ee = EE_BITFIELD_POINTER p f w sx)
  /\ (etype e <> TVoid -> kind_of ee <> EE_VOID)
  /\ (yields_constant e = false -> forall t w, kind_of ee <> EE_CONSTANT t w)
  /\ (forall p f w sx, kind_of ee = EE_BITFIELD_POINTER p f w sx -> is_integer (etype e)).

Definition dyn (u : use) (e : expr) (n : nat) (ee : evaluated) (c : list ins) (n' : nat) : Prop :=
  forall s m r m' R W, eval e m = Some (r, m', R, W) -> ready s m -> placed c ->
    exists s', evolves n n' W c s m s' m' /\ stands u n n' R (etype e) ee s' r.
Definition correct (u : use) (e : expr) : Prop := forall n, (start <= n)%nat ->
  exists ee c n', evaluate e n = Ok (ee, c, n') /\ (n <= n')%nat /\ data_type ee = etype e /\ shape e ee
    /\ dyn u e n ee c n'.

Lemma valid_app (R R' : list range) : (forall d, In d (R ++ R') -> valid_range d = true) ->
  (forall d, In d R -> valid_range d = true) /\ (forall d, In d R' -> valid_range d = true).
Proof. intros H. split; intros d D; apply H, in_or_app; tauto. Qed.

(** The value of an operand. *)
Lemma dyn_value u e n ee c n' s m v o m' R W : dyn u e n ee c n' -> typed e -> 0 <= bytes (etype e) ->
  yields (etype e) (eval e m) = Some (v, o, m', R, W) -> ready s m -> placed c ->
  exists s', evolves n n' W c s m s' m' /\ stands u n n' R (etype e) ee s' (Val v o)
    /\ 0 <= v < 256 ^ bytes (etype e) /\ (forall d, In d R -> valid_range d = true).
Proof.
  intros D T B Y RD PL.
  destruct (yields_sound G A fields struct_size valid_range e _ _ _ _ _ _
    (eval_sound G A fields struct_size valid_range structs e) T B (proj1 (proj2 (proj2 RD))) Y) as [SO RG].
  unfold PtrSpec.yields in Y. destruct (eval e m) as [[[[r m1] R1] W1]|] eqn:E; [|discriminate].
  destruct (value_of _ _ _) as [[[v1 R2] o1]|] eqn:V; [|discriminate]. injection Y as <- <- <- <- <-.
  destruct (eval_sound G A fields struct_size valid_range structs e _ _ _ _ _ T (proj1 (proj2 (proj2 RD))) E) as [_ K].
  destruct (D _ _ _ _ _ _ E RD PL) as (s' & EV & ST). exists s'. split; [exact EV|]. split; [|split; [exact RG|]].
  - eapply stands_value; [exact ST|exact V|apply (rd _ _ _ _ _ _ _ _ EV)|].
    intros a ->. exact (proj1 K).
  - exact (proj1 (valid_app _ _ (proj2 (proj2 SO)))).
Qed.

(** Two operands, not ordered. *)
Lemma two_values a b n ea ca n1 eb cb n2 s m va oa m1 Ra Wa vb ob m2 Rb Wb :
  dyn Value a n ea ca n1 -> dyn Value b n1 eb cb n2 -> (n <= n1)%nat -> (n1 <= n2)%nat ->
  typed a -> typed b -> 0 <= bytes (etype a) -> 0 <= bytes (etype b) ->
  yields (etype a) (eval a m) = Some (va, oa, m1, Ra, Wa) ->
  yields (etype b) (eval b m1) = Some (vb, ob, m2, Rb, Wb) ->
  unordered Ra Wa Rb Wb = true -> ready s m -> placed ca -> placed cb ->
  exists s', evolves n n2 (Wa ++ Wb) (ca ++ cb) s m s' m2
    /\ stands Value n n2 Ra (etype a) ea s' (Val va oa) /\ stands Value n n2 Rb (etype b) eb s' (Val vb ob)
    /\ 0 <= va < 256 ^ bytes (etype a) /\ 0 <= vb < 256 ^ bytes (etype b)
    /\ (forall d, In d Ra -> valid_range d = true) /\ (forall d, In d Rb -> valid_range d = true).
Proof.
  intros DA DB L1 L2 TA TB BA BB YA YB UN RD PA PB.
  destruct (dyn_value _ _ _ _ _ _ _ _ _ _ _ _ _ DA TA BA YA RD PA) as (s1 & EV1 & ST1 & RG1 & VR1).
  destruct (dyn_value _ _ _ _ _ _ _ _ _ _ _ _ _ DB TB BB YB (rd _ _ _ _ _ _ _ _ EV1) PB) as (s2 & EV2 & ST2 & RG2 & VR2).
  exists s2. split; [exact (seq _ _ _ _ _ _ _ _ _ _ _ _ _ EV1 L1 L2 EV2)|].
  unfold unordered in UN. apply andb_prop in UN. destruct UN as [UN U3]. apply andb_prop in UN. destruct UN as [U1 U2].
  split; [|split; [|repeat split; try assumption; try apply RG1; try apply RG2]].
  - eapply stands_keep; [exact ST1|exact EV2|lia|lia|exact VR1|exact U3].
  - eapply stands_more; [exact ST2|lia|lia|auto].
Qed.

(** Reading two of them. *)
Lemma read_two ea eb ta tb n la lb Ra Rb va oa vb ob s m v1 c1 n1 v2 c2 n2 :
  to_var ea n = Ok (v1, c1, n1) -> to_var eb n1 = Ok (v2, c2, n2) -> data_type ea = ta -> data_type eb = tb ->
  stands Value la n Ra ta ea s (Val va oa) -> stands Value lb n Rb tb eb s (Val vb ob) -> (n <= n1)%nat -> (n1 <= n2)%nat ->
  ready s m -> (start <= n)%nat -> 0 <= bytes ta -> 0 <= bytes tb -> 0 <= va < 256 ^ bytes ta -> 0 <= vb < 256 ^ bytes tb ->
  (forall d, In d Rb -> valid_range d = true) ->
  exists s', evolves n n2 [] (c1 ++ c2) s m s' m /\ mem_of s' = mem_of s /\ holds n2 s' v1 va /\ holds n2 s' v2 vb
    /\ size v1 = bytes ta /\ size v2 = bytes tb.
Proof.
  intros E1 E2 DA DB SA SB L1 L2 RD L BA BB RA RB VR.
  destruct (to_var_runs Value ea n v1 c1 n1 ta la Ra s m va oa E1 DA SA ltac:(discriminate) RD L BA RA) as (s1 & EV1 & M1 & H1 & Z1).
  assert (SB1 : stands Value lb n1 Rb tb eb s1 (Val vb ob)) by (eapply stands_keep0; [exact SB|exact EV1|lia|lia|exact VR]).
  destruct (to_var_runs Value eb n1 v2 c2 n2 tb lb Rb s1 m vb ob E2 DB SB1 ltac:(discriminate) (rd _ _ _ _ _ _ _ _ EV1) ltac:(lia) BB RB) as (s2 & EV2 & M2 & H2 & Z2).
  exists s2. split; [exact (seq0 _ _ _ _ _ _ _ _ _ _ _ _ EV1 L1 L2 EV2)|]. split; [congruence|].
  split; [exact (holds_keep _ _ _ _ _ _ _ _ _ _ _ H1 EV2 ltac:(lia) L2)|]. split; [exact H2|]. auto.
Qed.

(** An object and the value of the right operand. *)
Lemma place_and_value a b n ea ca n1 eb cb n2 s m ra m1 Ra Wa vb ob m2 Rb Wb :
  dyn Value a n ea ca n1 -> dyn Value b n1 eb cb n2 -> (n <= n1)%nat -> (n1 <= n2)%nat ->
  typed a -> typed b -> 0 <= bytes (etype b) -> designates a ->
  eval a m = Some (ra, m1, Ra, Wa) ->
  yields (etype b) (eval b m1) = Some (vb, ob, m2, Rb, Wb) ->
  (match ra with Val _ _ => False | _ => True end) ->
  ready s m -> placed ca -> placed cb ->
  exists s', evolves n n2 (Wa ++ Wb) (ca ++ cb) s m s' m2
    /\ stands Value n n2 [] (etype a) ea s' ra /\ stands Value n n2 Rb (etype b) eb s' (Val vb ob)
    /\ 0 <= vb < 256 ^ bytes (etype b) /\ result_ok a ra /\ (forall d, In d Rb -> valid_range d = true).
Proof.
  intros DA DB L1 L2 TA TB BB DE EA YB PLC RD PA PB.
  destruct (eval_sound G A fields struct_size valid_range structs a _ _ _ _ _ TA (proj1 (proj2 (proj2 RD))) EA) as [_ KA].
  destruct (DA _ _ _ _ _ _ EA RD PA) as (s1 & EV1 & ST1).
  destruct (dyn_value _ _ _ _ _ _ _ _ _ _ _ _ _ DB TB BB YB (rd _ _ _ _ _ _ _ _ EV1) PB) as (s2 & EV2 & ST2 & RG2 & VR2).
  exists s2. split; [exact (seq _ _ _ _ _ _ _ _ _ _ _ _ _ EV1 L1 L2 EV2)|].
  split; [|split; [|split; [exact RG2|split; [exact KA|exact VR2]]]].
  - eapply place_keep; [exact ST1|exact EV2|lia|lia|exact PLC].
  - eapply stands_more; [exact ST2|lia|lia|auto].
Qed.
Lemma place_of a m ra m1 Ra Wa : typed a -> bytes_ok m -> designates a -> eval a m = Some (ra, m1, Ra, Wa) ->
  (match ra with Val _ _ => False | _ => True end).
Proof.
  intros T M D E. destruct a; try (destruct D; fail).
  - cbn in E. injection E as <- _ _ _. exact I.
  - cbn in E. destruct (yields _ _) as [[[[[? ?] ?] ?] ?]|]; [|discriminate]. injection E as <- _ _ _. exact I.
  - cbn in E. destruct (etype a); try discriminate. destruct (eval a m) as [[[[r ?] ?] ?]|]; [|discriminate].
    destruct (nth_error _ _) as [f|]; [|discriminate]. destruct r; try discriminate.
    destruct (address _); [|discriminate]. destruct (f_bits f) as [[? ?]|]; injection E as <- _ _ _; exact I.
Qed.

(** The scaled index. *)
Lemma scaled_runs (sub : bool) p i tp ti t n lo1 lo2 R1 R2 vp op vi oi s m pv c1 n1 ri c0 n0 iv c2 n2 v :
  evaluated_cast i (TInt ST_ULONG) n = Ok (ri, c0, n0) -> to_var p n0 = Ok (pv, c1, n1) -> to_var ri n1 = Ok (iv, c2, n2) ->
  data_type p = tp -> data_type i = ti -> data_type ri = TInt ST_ULONG -> tp = TPtr t -> 0 < bytes t < 2 ^ 31 -> is_integer ti ->
  (n <= n0)%nat -> (n0 <= n1)%nat -> (n1 <= n2)%nat -> (start <= n)%nat ->
  stands Value lo1 n R1 tp p s (Val vp op) -> stands Value lo2 n R2 ti i s (Val vi oi) ->
  0 <= vp < 256 ^ bytes tp -> 0 <= vi < 256 ^ bytes ti ->
  (forall d, In d R1 -> valid_range d = true) -> (forall d, In d R2 -> valid_range d = true) ->
  ready s m ->
  address (if sub then vp - integer struct_size ti vi * bytes t else vp + integer struct_size ti vi * bytes t) = Some v ->
  let sv := {| id := n2; size := csz (TInt ST_ULONG) |} in
  let mv := {| id := S n2; size := size iv |} in
  let rv := {| id := S (S n2); size := size pv |} in
  exists s', evolves n (S (S (S n2))) [] (c0 ++ c1 ++ c2 ++ [IConst sv (csz t)] ++ [IBin IR_MUL mv iv sv]
      ++ [IBin (if sub then IR_SUB else IR_ADD) rv pv mv]) s m s' m
    /\ mem_of s' = mem_of s /\ holds (S (S (S n2))) s' rv v /\ size rv = 8 /\ holds (S (S (S n2))) s' pv vp.
Proof.
  intros E0 E1 E2 DP DI DR TP BT II L0 L1 L2 L SP SI RP RI V1 V2 RD AD sv mv rv.
  assert (SI' : scalar ti) by (apply integer_scalar, II).
  assert (SU : scalar (TInt ST_ULONG)) by (cbn; unfold integer_type; cbn; tauto).
  assert (BI : 0 <= bytes ti) by (pose proof (scalar_bytes struct_size ti SI'); lia).
  assert (BP : bytes tp = 8) by (rewrite TP; reflexivity).
  destruct (evaluated_cast_runs i ti (TInt ST_ULONG) n ri c0 n0 lo2 R2 s m vi oi E0 DI SI (or_intror (conj SI' SU)) RD L RI V2) as (s0 & EV0 & M0 & ST0).
  assert (SP0 : stands Value lo1 n0 R1 tp p s0 (Val vp op)) by (eapply stands_keep0; [exact SP|exact EV0|lia|lia|exact V1]).
  assert (RI0 : 0 <= converted ti (TInt ST_ULONG) vi < 256 ^ bytes (TInt ST_ULONG)) by (apply converted_range; assumption).
  destruct (read_two p ri tp (TInt ST_ULONG) n0 lo1 lo2 R1 R2 vp op (converted ti (TInt ST_ULONG) vi) _ s0 m pv c1 n1 iv c2 n2 E1 E2 DP DR SP0 ST0
     L1 L2 (rd _ _ _ _ _ _ _ _ EV0) ltac:(lia) ltac:(lia) ltac:(discriminate) RP RI0 V2) as (s1 & EV1 & M1 & HP & HI & ZP & ZI).
  destruct (node_runs n2 sv (fun d => IConst d (csz t)) (csz t) s1 m eq_refl ltac:(lia) eq_refl (rd _ _ _ _ _ _ _ _ EV1)) as (s2 & EV2 & M2 & HS).
  assert (HI2 := holds_keep _ _ _ _ _ _ _ _ _ _ _ HI EV2 ltac:(lia) ltac:(lia)).
  assert (HP2 := holds_keep _ _ _ _ _ _ _ _ _ _ _ HP EV2 ltac:(lia) ltac:(lia)).
  destruct (node_runs (S n2) mv (fun d => IBin IR_MUL d iv sv) (converted ti (TInt ST_ULONG) vi * (csz t mod 256 ^ size sv)) s2 m eq_refl ltac:(lia)) as (s3 & EV3 & M3 & HM).
  { cbn [step ir_value bind]. rewrite (proj1 HI2), (proj1 HS). reflexivity. }
  { exact (rd _ _ _ _ _ _ _ _ EV2). }
  assert (HP3 := holds_keep _ _ _ _ _ _ _ _ _ _ _ HP2 EV3 ltac:(lia) ltac:(lia)).
  set (x := (converted ti (TInt ST_ULONG) vi * (csz t mod 256 ^ size sv)) mod 256 ^ size mv) in *.
  destruct (node_runs (S (S n2)) rv (fun d => IBin (if sub then IR_SUB else IR_ADD) d pv mv) (if sub then vp - x else vp + x) s3 m eq_refl ltac:(lia)) as (s4 & EV4 & M4 & HR).
  { cbn [step]. rewrite (proj1 HP3), (proj1 HM). destruct sub; reflexivity. }
  { exact (rd _ _ _ _ _ _ _ _ EV3). }
  assert (HP4 := holds_keep _ _ _ _ _ _ _ _ _ _ _ HP3 EV4 ltac:(lia) ltac:(lia)).
  exists s4. split; [|split; [congruence|split; [|split; [cbn [rv size]; congruence|exact HP4]]]].
  - refine (seq0 _ _ _ _ _ _ _ _ _ _ _ _ EV0 _ _ _); [lia|lia|]. rewrite app_assoc.
    refine (seq0 _ _ _ _ _ _ _ _ _ _ _ _ EV1 _ _ _); [lia|lia|].
    refine (seq0 _ _ _ _ _ _ _ _ _ _ _ _ EV2 _ _ _); [lia|lia|].
    refine (seq0 _ _ _ _ _ _ _ _ _ _ _ _ EV3 _ _ EV4); lia.
  - apply address_some in AD. destruct AD as [-> AD].
    assert (XE : x mod 2 ^ 64 = (integer struct_size ti vi * bytes t) mod 2 ^ 64).
    { assert (CE : csz t mod 256 ^ size sv = bytes t).
      { cbn [sv size]. rewrite (csize struct_size t). change (csz (TInt ST_ULONG)) with 8. rewrite p64. apply Z.mod_small.
        assert (2 ^ 31 < 2 ^ 64) by reflexivity. lia. }
      unfold x. rewrite CE. cbn [mv size]. rewrite ZI. change (bytes (TInt ST_ULONG)) with 8. rewrite p64, Z.mod_mod by discriminate.
      apply mul_cong; [reflexivity| |reflexivity].
      unfold converted. destruct (ty_eqb ti (TInt ST_ULONG)) eqn:Q.
      - apply ty_eqb_eq in Q. rewrite Q. rewrite integer_unsigned by reflexivity. reflexivity.
      - unfold convert. cbn [is_bool]. unfold encode. change (bytes (TInt ST_ULONG)) with 8. rewrite p64, Z.mod_mod by discriminate. reflexivity. }
    unfold holds in *. destruct HR as [HR HR']. split; [|exact HR']. rewrite HR. cbn [rv size]. rewrite ZP, BP, p64.
    destruct sub.
    + rewrite <- (Z.mod_small _ (2 ^ 64) AD). apply sub_cong; [reflexivity|reflexivity|exact XE].
    + rewrite <- (Z.mod_small _ (2 ^ 64) AD). apply add_cong; [reflexivity|reflexivity|exact XE].
Qed.

Lemma step_if c t f s : step tmp (IIf c t f) s = if word s c =? 0 then steps tmp f s else steps tmp t s.
Proof. reflexivity. Qed.
Lemma step_phi c t ta f fa d s : step tmp (IPhi c t ta f fa d) s =
  if word s c =? 0
  then let* s := steps tmp f s in Ok (set_node s d (word s fa))
  else let* s := steps tmp t s in Ok (set_node s d (word s ta)).
Proof. reflexivity. Qed.

Ltac plain_shape := split; [intros []|split; [discriminate|split; [discriminate|split; [intros _; discriminate|discriminate]]]].

Lemma c_const u t w : typed (EConst t w) -> correct u (EConst t w).
Proof.
  intros T n L. eexists _, _, _. split; [reflexivity|]. split; [lia|]. split; [reflexivity|]. split.
  - split; [intros []|]. split; [discriminate|]. split; [discriminate|]. split; [discriminate|discriminate].
  - intros s m r m' R W E RD PL. injection E as <- <- <- <-. exists s. split; [apply evolves_nil, RD|].
    right. cbn [kind_of]. split; reflexivity.
Qed.
Lemma c_object u x : correct u (EObject x).
Proof.
  intros n L. eexists _, _, _. split; [reflexivity|]. split; [lia|]. split; [reflexivity|]. split.
  - split; [intros _ _; eexists; reflexivity|]. split; [discriminate|]. split; [discriminate|]. split; [discriminate|discriminate].
  - intros s m r m' R W E RD PL. injection E as <- <- <- <-. exists s. split; [apply evolves_nil, RD|].
    right. exists (ptr x). pose proof (ptrs x). split; [reflexivity|]. split; [apply RD|]. split; [tauto|lia].
Qed.
Lemma c_ind u a t : typed a -> etype a = TPtr t -> yields_constant a = false -> correct Value a -> correct u (EInd a).
Proof.
  intros T ET YC IH n L. destruct (IH n L) as (ee & c & n1 & E & L1 & DT & SH & DY).
  destruct SH as (_ & _ & SV & SC & SB).
  assert (NV : etype a <> TVoid) by (rewrite ET; discriminate).
  assert (B : 0 <= bytes (etype a)) by (rewrite ET; discriminate).
  assert (B8 : bytes (etype a) = 8) by (rewrite ET; reflexivity).
  destruct (kind_of ee) as [|t' w|v|p|p f w sx] eqn:K.
  - exfalso. exact (SV NV eq_refl).
  - exfalso. exact (SC YC _ _ eq_refl).
  - exists (pointer v (etype (EInd a))), (c ++ []), n1. split.
    { cbn [PtrExpr.evaluate]. refine (gbind_ok _ _ _ _ _ _ _ _ _ _ _ E _). rewrite K. reflexivity. }
    split; [exact L1|]. split; [reflexivity|]. split.
    { split; [intros _ _; eexists; reflexivity|]. split; [discriminate|]. split; [discriminate|]. split; [discriminate|discriminate]. }
    intros s m r m' R W EV RD PL. cbn [PtrSpec.eval] in EV.
    destruct (yields _ _) as [[[[[v0 o] m1] R1] W1]|] eqn:Y; [|discriminate]. injection EV as <- <- <- <-.
    destruct (placed_app _ _ PL) as [PL1 _].
    destruct (dyn_value _ _ _ _ _ _ _ _ _ _ _ _ _ DY T B Y RD PL1) as (s1 & EV1 & ST1 & RG1 & _).
    exists s1. split; [exact (finish _ _ _ _ _ _ _ _ EV1)|]. right.
    destruct ST1 as [ST1|ST1]; [discriminate|]. rewrite K in ST1. destruct ST1 as (X1 & X2 & X3).
    exists v. split; [reflexivity|]. split; [exact X1|]. split; [rewrite (X2 eq_refl); exact B8|exact X3].
  - exists (pointer {| id := n1; size := 8 |} (etype (EInd a))), (c ++ [ILoad {| id := n1; size := 8 |} p] ++ []), (S n1). split.
    { cbn [PtrExpr.evaluate]. refine (gbind_ok _ _ _ _ _ _ _ _ _ _ _ E _). rewrite K. reflexivity. }
    split; [lia|]. split; [reflexivity|]. split.
    { split; [intros _ _; eexists; reflexivity|]. split; [discriminate|]. split; [discriminate|]. split; [discriminate|discriminate]. }
    intros s m r m' R W EV RD PL. cbn [PtrSpec.eval] in EV.
    destruct (yields _ _) as [[[[[v0 o] m1] R1] W1]|] eqn:Y; [|discriminate]. injection EV as <- <- <- <-.
    destruct (placed_app _ _ PL) as [PL1 _].
    destruct (dyn_value _ _ _ _ _ _ _ _ _ _ _ _ _ DY T B Y RD PL1) as (s1 & EV1 & ST1 & RG1 & _).
    destruct ST1 as [ST1|ST1]; [discriminate|]. rewrite K in ST1. destruct ST1 as (X1 & X2 & X3 & X4 & X5).
    destruct (node_runs n1 {| id := n1; size := 8 |} (fun d => ILoad d p) v0 s1 m1 eq_refl ltac:(lia)) as (s2 & EV2 & M2 & H2).
    { cbn [step size]. rewrite <- B8, X1. reflexivity. }
    { exact (rd _ _ _ _ _ _ _ _ EV1). }
    exists s2. split.
    { refine (seq0 _ _ _ _ _ _ _ _ _ _ _ _ EV1 _ _ (finish _ _ _ _ _ _ _ _ EV2)); lia. }
    right. eexists. split; [reflexivity|]. cbn [size] in H2. rewrite <- B8 in H2 at 1. rewrite Z.mod_small in H2 by (rewrite <- B8; exact RG1).
    split; [apply H2|]. split; [reflexivity|apply H2].
  - exfalso. specialize (SB _ _ _ _ eq_refl). rewrite ET in SB. exact SB.
Qed.

Lemma c_address u a (e : expr) t : e = EAddr a \/ e = EDecay a -> etype e = TPtr t ->
  typed a -> designates a -> bit_field a = false -> correct Value a -> correct u e.
Proof.
  intros HE ET T D BF IH n L. destruct (IH n L) as (ee & c & n1 & E & L1 & DT & SH & DY).
  destruct SH as (SP & _). destruct (SP D BF) as [p K].
  exists (variable p (etype e)), (c ++ []), n1. split.
  { destruct HE as [-> | ->]; cbn [PtrExpr.evaluate]; refine (gbind_ok _ _ _ _ _ _ _ _ _ _ _ E _); rewrite K; reflexivity. }
  split; [exact L1|]. split; [reflexivity|]. split.
  { destruct HE as [-> | ->]; plain_shape. }
  intros s m r m' R W EV RD PL.
  assert (EV' : match eval a m with
      | Some (Obj a, m, R, W) => Some (Val a Nowhere, m, R, W)
      | _ => None
      end = Some (r, m', R, W)) by (destruct HE as [-> | ->]; exact EV).
  destruct (eval a m) as [[[[ra m1] Ra] Wa]|] eqn:EA; [|discriminate]. destruct ra; try discriminate. injection EV' as <- <- <- <-.
  destruct (placed_app _ _ PL) as [PL1 _].
  destruct (DY _ _ _ _ _ _ EA RD PL1) as (s1 & EV1 & ST1). exists s1. split; [exact (finish _ _ _ _ _ _ _ _ EV1)|].
  destruct ST1 as [ST1|ST1]; [discriminate|]. destruct ST1 as (p' & K' & X1 & X2 & X3). rewrite K in K'. injection K' as <-.
  right. cbn [kind_of variable]. split; [exact X1|]. split; [|exact X3]. intros _. rewrite X2, ET. reflexivity.
Qed.

Lemma c_dot u a i : typed (EDot a i) -> correct Value a -> correct u (EDot a i).
Proof.
  intros (T & D & BF & f & Hf & FB) IH n L. destruct (IH n L) as (ee & c & n1 & E & L1 & DT & SH & DY).
  destruct SH as (SP & _). destruct (SP D BF) as [p K].
  destruct (etype a) as [| | | |sid] eqn:ET; try discriminate Hf. cbn [member_of] in Hf.
  assert (EF : etype (EDot a i) = f_type f) by (cbn [PtrSpec.etype]; rewrite ET, Hf; reflexivity).
  set (ov := {| id := n1; size := 8 |}). set (mv := {| id := S n1; size := size p |}).
  exists (match f_bits f with
          | Some (first, width) => {| kind_of := EE_BITFIELD_POINTER mv first width (type_is_signed (f_type f)); data_type := etype (EDot a i) |}
          | None => pointer mv (etype (EDot a i)) end),
    (c ++ [] ++ [IConst ov (f_offset f)] ++ [IBin IR_ADD mv p ov] ++ []), (S (S n1)). split.
  { cbn [PtrExpr.evaluate]. refine (gbind_ok _ _ _ _ _ _ _ _ _ _ _ E _). rewrite DT, Hf.
    unfold PtrExpr.to_address. rewrite K. destruct (f_bits f) as [[? ?]|]; reflexivity. }
  assert (BT : bit_field (EDot a i) = match f_bits f with Some _ => true | None => false end)
    by (cbn [PtrSpec.bit_field]; rewrite ET; cbn [member_of]; rewrite Hf; reflexivity).
  split; [lia|]. split; [destruct (f_bits f) as [[? ?]|]; reflexivity|]. split.
  { unfold shape. rewrite BT. destruct (f_bits f) as [[first width]|]; cbn [kind_of pointer].
    - split; [discriminate|]. split; [intros _; eexists _, _, _, _; reflexivity|]. split; [discriminate|]. split; [discriminate|].
      intros _ _ _ _ _. rewrite EF. apply FB.
    - split; [intros _ _; eexists; reflexivity|]. split; [discriminate|]. split; [discriminate|]. split; discriminate. }
  intros s m r m' R W EV RD PL. cbn [PtrSpec.eval] in EV. rewrite ET in EV.
  destruct (eval a m) as [[[[ra m1] Ra] Wa]|] eqn:EA; [|discriminate]. rewrite Hf in EV. destruct ra as [|a1| |]; try discriminate.
  destruct (address _) as [a2|] eqn:AD; [|discriminate]. apply address_some in AD. destruct AD as [-> AD].
  destruct (placed_app _ _ PL) as [PL1 _].
  destruct (DY _ _ _ _ _ _ EA RD PL1) as (s1 & EV1 & ST1).
  destruct ST1 as [ST1|ST1]; [discriminate|]. destruct ST1 as (p' & K' & X1 & X2 & X3). rewrite K in K'. injection K' as <-.
  destruct (node_runs n1 ov (fun d => IConst d (f_offset f)) (f_offset f) s1 m1 eq_refl ltac:(lia) eq_refl (rd _ _ _ _ _ _ _ _ EV1)) as (s2 & EV2 & M2 & H2).
  destruct (node_runs (S n1) mv (fun d => IBin IR_ADD d p ov) (a1 + f_offset f mod 256 ^ size ov) s2 m1 eq_refl ltac:(lia)) as (s3 & EV3 & M3 & H3).
  { cbn [step ir_value bind]. rewrite (word_keep _ _ _ _ _ _ _ _ p EV2) by exact X3. rewrite X1, (proj1 H2). reflexivity. }
  { exact (rd _ _ _ _ _ _ _ _ EV2). }
  assert (HW : word s3 mv = a1 + f_offset f).
  { rewrite (proj1 H3). cbn [mv ov size]. rewrite X2, p64. rewrite Z.add_mod_idemp_r by discriminate. apply Z.mod_small, AD. }
  assert (EVA : evolves n (S (S n1)) Wa (c ++ [] ++ [IConst ov (f_offset f)] ++ [IBin IR_ADD mv p ov] ++ []) s m s3 m1).
  { refine (seq0 _ _ _ _ _ _ _ _ _ _ _ _ EV1 _ _ _); [lia|lia|]. cbn [app].
    refine (seq0 _ _ _ _ [_] [_] _ _ _ _ _ _ EV2 _ _ EV3); lia. }
  destruct (f_bits f) as [[first width]|]; injection EV as <- <- <- <-; exists s3; (split; [exact EVA|]); right.
  - exists mv. rewrite EF. split; [reflexivity|]. split; [exact HW|]. split; [exact X2|]. split; [apply H3|].
    destruct FB as (F1 & F2 & F3 & F4 & _). repeat split; assumption.
  - exists mv. split; [reflexivity|]. split; [exact HW|]. split; [exact X2|apply H3].
Qed.

Lemma size_const a t n : etype a = TPtr t ->
  to_var (size_constant struct_size (etype a)) n =
  Ok ({| id := n; size := csz (TInt ST_ULONG) |}, [IConst {| id := n; size := csz (TInt ST_ULONG) |} (csz t)], S n).
Proof. intros ->. reflexivity. Qed.

Lemma c_ptr u sub a b : typed (EPtr sub a b) -> correct Value a -> correct Value b -> correct u (EPtr sub a b).
Proof.
  intros (TA & TB & II & (t & ET & BT) & _) IHa IHb n L.
  destruct (IHa n L) as (p & ca & n1 & E1 & L1 & DT1 & SH1 & DY1).
  destruct (IHb n1 ltac:(lia)) as (i & cb & n2 & E2 & L2 & DT2 & SH2 & DY2).
  assert (KP : kind_of p <> EE_VOID) by (apply SH1; rewrite ET; discriminate).
  assert (NVI : etype b <> TVoid) by (destruct (etype b); try discriminate; destruct II).
  assert (KI : kind_of i <> EE_VOID) by (apply SH2, NVI).
  destruct (evaluated_cast_ok i (TInt ST_ULONG) n2 (or_introl KI)) as (ri & c0 & n3 & E3 & L3 & DR & KR & _).
  assert (KRI : kind_of ri <> EE_VOID) by (intros X; destruct (KR X); [discriminate|exact (KI H)]).
  destruct (to_var_ok p n3 KP) as (pv & c1 & n4 & E4 & L4).
  destruct (to_var_ok ri n4 KRI) as (iv & c2 & n5 & E5 & L5).
  eexists _, _, _. split.
  { cbn [PtrExpr.evaluate]. refine (gbind_ok _ _ _ _ _ _ _ _ _ _ _ E1 _). refine (gbind_ok _ _ _ _ _ _ _ _ _ _ _ E2 _).
    refine (gbind_ok _ _ _ _ _ _ _ _ _ _ _ E3 _). refine (gbind_ok _ _ _ _ _ _ _ _ _ _ _ E4 _). refine (gbind_ok _ _ _ _ _ _ _ _ _ _ _ E5 _).
    refine (gbind_ok _ _ _ _ _ _ _ _ _ _ _ (size_const a t n5 ET) _).
    refine (gbind_ok _ _ _ _ _ _ _ _ _ _ _ eq_refl _). refine (gbind_ok _ _ _ _ _ _ _ _ _ _ _ eq_refl _). reflexivity. }
  split; [lia|]. split; [reflexivity|]. split; [plain_shape|].
  intros s m r m' R W EV RD PL. cbn [PtrSpec.eval] in EV.
  assert (BA : 0 <= bytes (etype a)) by (rewrite ET; discriminate).
  assert (BB : 0 <= bytes (etype b)) by (pose proof (scalar_bytes struct_size _ (integer_scalar _ II)); lia).
  destruct (yields (etype a) _) as [[[[[vp op] m1] Rp] Wp]|] eqn:Y1; [|discriminate].
  destruct (yields (etype b) _) as [[[[[vi oi] m2] Ri] Wi]|] eqn:Y2; [|discriminate].
  destruct (unordered _ _ _ _) eqn:UN; [|discriminate]. rewrite ET in EV.
  destruct (address _) as [v|] eqn:AD; [|discriminate]. injection EV as <- <- <- <-.
  destruct (placed_app _ _ PL) as [PLa PL']. destruct (placed_app _ _ PL') as [PLb _].
  destruct (two_values _ _ _ _ _ _ _ _ _ _ _ _ _ _ _ _ _ _ _ _ _ DY1 DY2 L1 L2 TA TB BA BB Y1 Y2 UN RD PLa PLb)
    as (s2 & EV2 & SP & SI & RP & RI & V1 & V2).
  destruct (scaled_runs sub p i (etype a) (etype b) t n2 n n Rp Ri vp op vi oi s2 m2 pv c1 n4 ri c0 n3 iv c2 n5 v
    E3 E4 E5 DT1 DT2 DR ET BT II L3 L4 L5 ltac:(lia) SP SI RP RI V1 V2 (rd _ _ _ _ _ _ _ _ EV2) AD) as (s3 & EV3 & M3 & H3 & Z3 & _).
  exists s3. split.
  { rewrite app_assoc. refine (seq0 _ _ _ _ _ _ _ _ _ _ _ _ EV2 _ _ _); [lia|lia|]. cbn [app] in EV3 |- *.
    exact EV3. }
  right. cbn [kind_of variable]. split; [apply H3|]. split; [|apply H3]. intros _. cbn [PtrSpec.etype]. rewrite ET. exact Z3.
Qed.

Lemma diff_word vp vq k : 0 < k -> (vp - vq) mod k = 0 -> - 2 ^ 63 <= vp - vq < 2 ^ 63 -> k < 2 ^ 31 ->
  ir_value IR_IDIV 8 ((vp - vq) mod 2 ^ 64) k = Ok ((vp - vq) / k).
Proof.
  intros K M RG KB. cbn [ir_value].
  assert (S1 : signed (8 * 8) ((vp - vq) mod 2 ^ 64) = vp - vq).
  { change (8 * 8) with 64. unfold signed. cbv zeta. rewrite Z.mod_mod by discriminate.
    destruct (Z_lt_ge_dec (vp - vq) 0) as [N|P].
    - replace ((vp - vq) mod 2 ^ 64) with (vp - vq + 2 ^ 64).
      + destruct (Z.ltb_spec (vp - vq + 2 ^ 64) (2 ^ (64 - 1))) as [X|X]; change (2 ^ (64 - 1)) with (2 ^ 63) in X;
          assert (2 ^ 64 = 2 * 2 ^ 63) by reflexivity; lia.
      + apply (Z.mod_unique _ _ (-1)); [left; assert (2 ^ 64 = 2 * 2 ^ 63) by reflexivity; lia|lia].
    - rewrite Z.mod_small by (assert (2 ^ 64 = 2 * 2 ^ 63) by reflexivity; lia).
      destruct (Z.ltb_spec (vp - vq) (2 ^ (64 - 1))) as [X|X]; change (2 ^ (64 - 1)) with (2 ^ 63) in X; lia. }
  assert (S2 : signed (8 * 8) k = k).
  { apply signed_id; [lia|]. change (8 * 8 - 1) with 63. assert (2 ^ 31 < 2 ^ 63) by reflexivity. lia. }
  rewrite S1, S2. destruct (Z.eqb_spec k 0); [lia|]. destruct (Z.eqb_spec k (-1)); [lia|]. cbn [andb]. f_equal.
  apply Z.mod_divide in M; [|lia]. destruct M as [q Hq]. rewrite Hq, Z.div_mul, Z.quot_mul by lia. reflexivity.
Qed.

Lemma c_diff u a b : typed (EDiff a b) -> correct Value a -> correct Value b -> correct u (EDiff a b).
Proof.
  intros (TA & TB & t & ET & ETb & BT) IHa IHb n L.
  destruct (IHa n L) as (p & ca & n1 & E1 & L1 & DT1 & SH1 & DY1).
  destruct (IHb n1 ltac:(lia)) as (q & cb & n2 & E2 & L2 & DT2 & SH2 & DY2).
  assert (KP : kind_of p <> EE_VOID) by (apply SH1; rewrite ET; discriminate).
  assert (KQ : kind_of q <> EE_VOID) by (apply SH2; rewrite ETb; discriminate).
  destruct (to_var_ok p n2 KP) as (pv & c1 & n3 & E3 & L3).
  destruct (to_var_ok q n3 KQ) as (qv & c2 & n4 & E4 & L4).
  eexists _, _, _. split.
  { cbn [PtrExpr.evaluate]. refine (gbind_ok _ _ _ _ _ _ _ _ _ _ _ E1 _). refine (gbind_ok _ _ _ _ _ _ _ _ _ _ _ E2 _).
    refine (gbind_ok _ _ _ _ _ _ _ _ _ _ _ E3 _). refine (gbind_ok _ _ _ _ _ _ _ _ _ _ _ E4 _).
    refine (gbind_ok _ _ _ _ _ _ _ _ _ _ _ (size_const a t n4 ET) _).
    refine (gbind_ok _ _ _ _ _ _ _ _ _ _ _ eq_refl _). refine (gbind_ok _ _ _ _ _ _ _ _ _ _ _ eq_refl _). reflexivity. }
  split; [lia|]. split; [reflexivity|]. split; [plain_shape|].
  intros s m r m' R W EV RD PL. cbn [PtrSpec.eval] in EV.
  assert (BA : 0 <= bytes (etype a)) by (rewrite ET; discriminate).
  assert (BB : 0 <= bytes (etype b)) by (rewrite ETb; discriminate).
  destruct (yields (etype a) _) as [[[[[vp op] m1] Rp] Wp]|] eqn:Y1; [|discriminate].
  destruct (yields (etype b) _) as [[[[[vq oq] m2] Rq] Wq]|] eqn:Y2; [|discriminate].
  rewrite ET in EV. destruct (unordered _ _ _ _) eqn:UN; [|discriminate].
  destruct (Z.eqb_spec ((vp - vq) mod bytes t) 0) as [MD|]; [|discriminate].
  destruct (Z.leb_spec (- 2 ^ 63) (vp - vq)) as [LO|]; [|discriminate].
  destruct (Z.ltb_spec (vp - vq) (2 ^ 63)) as [HI|]; [|discriminate]. cbn [andb] in EV. injection EV as <- <- <- <-.
  destruct (placed_app _ _ PL) as [PLa PL']. destruct (placed_app _ _ PL') as [PLb _].
  destruct (two_values _ _ _ _ _ _ _ _ _ _ _ _ _ _ _ _ _ _ _ _ _ DY1 DY2 L1 L2 TA TB BA BB Y1 Y2 UN RD PLa PLb)
    as (s2 & EV2 & SP & SQ & RP & RQ & V1 & V2).
  destruct (read_two p q (etype a) (etype b) n2 n n Rp Rq vp op vq oq s2 m2 pv c1 n3 qv c2 n4 E3 E4 DT1 DT2 SP SQ
     L3 L4 (rd _ _ _ _ _ _ _ _ EV2) ltac:(lia) BA BB RP RQ V2) as (s3 & EV3 & M3 & HP & HQ & ZP & ZQ).
  set (sv := {| id := n4; size := csz (TInt ST_ULONG) |}).
  destruct (node_runs n4 sv (fun d => IConst d (csz t)) (csz t) s3 m2 eq_refl ltac:(lia) eq_refl (rd _ _ _ _ _ _ _ _ EV3)) as (s4 & EV4 & M4 & HS).
  assert (CE : csz t mod 256 ^ size sv = bytes t).
  { cbn [sv size]. rewrite (csize struct_size t). change (csz (TInt ST_ULONG)) with 8. rewrite p64. apply Z.mod_small.
    assert (2 ^ 31 < 2 ^ 64) by reflexivity. lia. }
  rewrite CE in HS.
  assert (HP4 := holds_keep _ _ _ _ _ _ _ _ _ _ _ HP EV4 ltac:(lia) ltac:(lia)).
  assert (HQ4 := holds_keep _ _ _ _ _ _ _ _ _ _ _ HQ EV4 ltac:(lia) ltac:(lia)).
  set (dv := {| id := S n4; size := size pv |}).
  destruct (node_runs (S n4) dv (fun d => IBin IR_SUB d pv qv) (vp - vq) s4 m2 eq_refl ltac:(lia)) as (s5 & EV5 & M5 & HD).
  { cbn [step ir_value bind]. rewrite (proj1 HP4), (proj1 HQ4). reflexivity. }
  { exact (rd _ _ _ _ _ _ _ _ EV4). }
  assert (ZD : size pv = 8) by (rewrite ZP, ET; reflexivity).
  cbn [dv size] in HD. rewrite ZD, p64 in HD.
  assert (HS5 := holds_keep _ _ _ _ _ _ _ _ _ _ _ HS EV5 ltac:(lia) ltac:(lia)).
  set (rv := {| id := S (S n4); size := size dv |}).
  destruct (node_runs (S (S n4)) rv (fun d => IBin IR_IDIV d dv sv) ((vp - vq) / bytes t) s5 m2 eq_refl ltac:(lia)) as (s6 & EV6 & M6 & HR).
  { cbn [step]. cbn [dv size] in HD |- *. rewrite (proj1 HD), (proj1 HS5), ZD.
    rewrite (diff_word vp vq (bytes t)) by (try split; lia). reflexivity. }
  { exact (rd _ _ _ _ _ _ _ _ EV5). }
  exists s6. split.
  { rewrite app_assoc. refine (seq0 _ _ _ _ _ _ _ _ _ _ _ _ EV2 _ _ _); [lia|lia|]. rewrite app_assoc.
    refine (seq0 _ _ _ _ _ _ _ _ _ _ _ _ EV3 _ _ _); [lia|lia|].
    refine (seq0 _ _ _ _ _ _ _ _ _ _ _ _ EV4 _ _ _); [lia|lia|].
    refine (seq0 _ _ _ _ _ _ _ _ _ _ _ _ EV5 _ _ (finish _ _ _ _ _ _ _ _ EV6)); lia. }
  right. cbn [kind_of variable]. split; [|split; [|apply HR]].
  - unfold holds in HR. destruct HR as [HR _]. rewrite HR. cbn [rv dv size]. rewrite ZD. reflexivity.
  - intros _. cbn [rv dv size]. exact ZD.
Qed.

(** The same evaluated expression under another name. *)
Lemma stands_with u lo hi R t e s r t' : stands u lo hi R t e s r -> stands u lo hi R t (with_type t' e) s r.
Proof. intros H. eapply stands_kind; [exact H|reflexivity]. Qed.

Lemma void_dec t : t = TVoid \/ t <> TVoid.
Proof. destruct t; first [left; reflexivity | right; discriminate]. Qed.

Lemma c_cast_void u a : correct Unused a -> correct u (ECast TVoid a).
Proof.
  intros IH n L. destruct (IH n L) as (ee & c & n1 & E & L1 & DT & SH & DY).
  destruct (evaluated_cast_ok ee TVoid n1 (or_intror eq_refl)) as (r0 & c0 & n2 & E0 & L2 & DR & _).
  eexists _, _, _. split.
  { cbn [PtrExpr.evaluate]. refine (gbind_ok _ _ _ _ _ _ _ _ _ _ _ E _). refine (gbind_ok _ _ _ _ _ _ _ _ _ _ _ E0 _). reflexivity. }
  assert (SC : ((r0 = ee /\ etype a = TVoid) \/ kind_of r0 = EE_VOID) /\ c0 = [] /\ n2 = n1).
  { unfold PtrExpr.evaluated_cast in E0. destruct (ty_eqb (data_type ee) TVoid) eqn:Q.
    - injection E0 as <- <- <-. apply ty_eqb_eq in Q. split; [left; split; congruence|split; reflexivity].
    - injection E0 as <- <- <-. split; [right; reflexivity|split; reflexivity]. }
  destruct SC as (SC & -> & ->).
  split; [lia|]. split; [reflexivity|]. split.
  { split; [intros []|]. split; [discriminate|]. split; [intros X; destruct (X eq_refl)|]. split.
    - cbn [PtrSpec.yields_constant]. intros YC t w. cbn [with_type kind_of].
      destruct SC as [[-> ET] | KV]; [|rewrite KV; discriminate].
      apply SH. rewrite ET in YC. exact YC.
    - cbn [with_type kind_of]. intros p f w sx K. destruct SC as [[-> ET] | KV]; [|congruence].
      destruct SH as (_ & _ & _ & _ & SB). specialize (SB _ _ _ _ K). rewrite ET in SB. destruct SB. }
  intros s m r m' R W EV RD PL. cbn [PtrSpec.eval] in EV.
  destruct (eval a m) as [[[[ra m1] Ra] Wa]|] eqn:EA; [|discriminate]. injection EV as <- <- <- <-.
  destruct (placed_app _ _ PL) as [PL1 _].
  destruct (DY _ _ _ _ _ _ EA RD PL1) as (s1 & EV1 & _). exists s1. split; [exact (finish _ _ _ _ _ _ _ _ EV1)|].
  right. exact I.
Qed.

Lemma c_cast u t a : typed (ECast t a) -> t <> TVoid -> correct Value a -> correct u (ECast t a).
Proof.
  intros (T & TT) NV IH n L. destruct (IH n L) as (ee & c & n1 & E & L1 & DT & SH & DY).
  assert (TT' : (etype a = t /\ plain_value t) \/ (scalar (etype a) /\ scalar t)).
  { destruct TT as [X | [X | [X Y]]]; [congruence|tauto|left; split; [congruence|exact Y]]. }
  assert (NVa : etype a <> TVoid).
  { destruct TT' as [[-> _] | [X _]]; [exact NV|]. intros Y. rewrite Y in X. destruct X. }
  assert (B : 0 <= bytes (etype a)).
  { destruct TT' as [[-> X] | [X _]]; [apply plain_bytes; [exact structs|exact X]|]. pose proof (scalar_bytes struct_size _ X). lia. }
  assert (KE : kind_of ee <> EE_VOID) by (apply SH, NVa).
  destruct (evaluated_cast_ok ee t n1 (or_introl KE)) as (r0 & c0 & n2 & E0 & L2 & DR & KV & KC & KB).
  eexists _, _, _. split.
  { cbn [PtrExpr.evaluate]. refine (gbind_ok _ _ _ _ _ _ _ _ _ _ _ E _). refine (gbind_ok _ _ _ _ _ _ _ _ _ _ _ E0 _). reflexivity. }
  split; [lia|]. split; [reflexivity|]. split.
  { split; [intros []|]. split; [discriminate|]. cbn [with_type kind_of]. split.
    - intros _ X. destruct (KV X); tauto.
    - split.
      + cbn [PtrSpec.yields_constant]. intros YC t' w X. destruct (KC _ _ X) as [Q X'].
        rewrite DT in Q. rewrite Q, (proj2 (ty_eqb_eq t t) eq_refl) in YC. cbn [andb] in YC.
        exact (proj1 (proj2 (proj2 (proj2 SH))) YC _ _ X').
      + intros p f w sx X. destruct (KB _ _ _ _ X) as [Q X']. rewrite DT in Q. cbn [PtrSpec.etype]. rewrite <- Q.
        exact (proj2 (proj2 (proj2 (proj2 SH))) _ _ _ _ X'). }
  intros s m r m' R W EV RD PL.
  assert (EV' : match yields (etype a) (eval a m) with
          | Some (v, o, m, R, W) =>
              Some (if ty_eqb (etype a) t then Val v o else Val (convert struct_size (etype a) t v) Nowhere, m, R, W)
          | None => None
          end = Some (r, m', R, W)) by (cbn [PtrSpec.eval] in EV; destruct t; first [exact EV | congruence]).
  destruct (yields _ _) as [[[[[v o] m1] R1] W1]|] eqn:Y; [|discriminate].
  destruct (placed_app _ _ PL) as [PL1 _].
  destruct (dyn_value _ _ _ _ _ _ _ _ _ _ _ _ _ DY T B Y RD PL1) as (s1 & EV1 & ST1 & RG1 & VR1).
  destruct (evaluated_cast_runs ee (etype a) t n1 r0 c0 n2 n R1 s1 m1 v o E0 DT ST1 TT' (rd _ _ _ _ _ _ _ _ EV1) ltac:(lia) RG1 VR1) as (s2 & EV2 & M2 & ST2).
  assert (ER : r = Val (converted (etype a) t v) (if ty_eqb (etype a) t then o else Nowhere) /\ m' = m1 /\ R = R1 /\ W = W1).
  { unfold converted. destruct (ty_eqb (etype a) t); injection EV' as <- <- <- <-; repeat split. }
  destruct ER as (-> & -> & -> & ->).
  exists s2. split.
  { refine (seq0 _ _ _ _ _ _ _ _ _ _ _ _ EV1 _ _ (finish _ _ _ _ _ _ _ _ EV2)); lia. }
  apply stands_use, stands_with. cbn [PtrSpec.etype]. exact ST2.
Qed.

Lemma c_bin u op a b : typed (EBin op a b) -> (comparison op = true -> u = Value -> bytes (etype a) = 4) ->
  correct Value a -> correct Value b -> correct u (EBin op a b).
Proof.
  intros (TA & TB & EAB & O) CV IHa IHb n L.
  destruct (IHa n L) as (l & ca & n1 & E1 & L1 & DT1 & SH1 & DY1).
  destruct (IHb n1 ltac:(lia)) as (r & cb & n2 & E2 & L2 & DT2 & SH2 & DY2).
  assert (PT : promoted (etype a) \/ exists t, etype a = TPtr t) by tauto.
  assert (NVa : etype a <> TVoid).
  { destruct PT as [P | [t P]]; [|rewrite P; discriminate]. destruct (etype a); try discriminate. destruct P. }
  assert (BA : 0 <= bytes (etype a)).
  { destruct PT as [P | [t P]]; [pose proof (promoted_bytes struct_size _ P); lia|rewrite P; discriminate]. }
  assert (BB : 0 <= bytes (etype b)) by (rewrite <- EAB; exact BA).
  assert (KA : kind_of l <> EE_VOID) by (apply SH1, NVa).
  assert (KB : kind_of r <> EE_VOID) by (apply SH2; rewrite <- EAB; exact NVa).
  destruct (to_var_ok l n2 KA) as (lv & c1 & n3 & E3 & L3).
  destruct (to_var_ok r n3 KB) as (rv & c2 & n4 & E4 & L4).
  destruct (binary_node_ok (etype a) op lv rv n4 O) as (v & c3 & E5).
  eexists _, _, _. split.
  { cbn [PtrExpr.evaluate]. refine (gbind_ok _ _ _ _ _ _ _ _ _ _ _ E1 _). refine (gbind_ok _ _ _ _ _ _ _ _ _ _ _ E2 _).
    refine (gbind_ok _ _ _ _ _ _ _ _ _ _ _ E3 _). refine (gbind_ok _ _ _ _ _ _ _ _ _ _ _ E4 _).
    refine (gbind_ok _ _ _ _ _ _ _ _ _ _ _ E5 _). reflexivity. }
  split; [lia|]. split; [reflexivity|]. split; [plain_shape|].
  intros s m r0 m' R W EV RD PL. cbn [PtrSpec.eval] in EV.
  destruct (yields (etype a) _) as [[[[[va oa] m1] Ra] Wa]|] eqn:Y1; [|discriminate].
  destruct (yields (etype b) _) as [[[[[vb ob] m2] Rb] Wb]|] eqn:Y2; [|discriminate].
  destruct (unordered _ _ _ _) eqn:UN; [|discriminate].
  destruct (operate _ _ _ _) as [w|] eqn:OP; [|discriminate]. injection EV as <- <- <- <-.
  destruct (placed_app _ _ PL) as [PLa PL']. destruct (placed_app _ _ PL') as [PLb _].
  destruct (two_values _ _ _ _ _ _ _ _ _ _ _ _ _ _ _ _ _ _ _ _ _ DY1 DY2 L1 L2 TA TB BA BB Y1 Y2 UN RD PLa PLb)
    as (s2 & EV2 & SA & SB & RA & RB & V1 & V2).
  destruct (read_two l r (etype a) (etype b) n2 n n Ra Rb va oa vb ob s2 m2 lv c1 n3 rv c2 n4 E3 E4 DT1 DT2 SA SB
     L3 L4 (rd _ _ _ _ _ _ _ _ EV2) ltac:(lia) BA BB RA RB V2) as (s3 & EV3 & M3 & HA & HB & ZA & ZB).
  rewrite <- EAB in RB.
  destruct (binary_node_runs (etype a) op lv rv n4 v c3 (S n4) s3 m2 va vb w E5 O HA HB ZA RA RB OP (rd _ _ _ _ _ _ _ _ EV3) ltac:(lia)) as (s4 & EV4 & M4 & HV & ZV & _).
  exists s4. split.
  { rewrite app_assoc. refine (seq0 _ _ _ _ _ _ _ _ _ _ _ _ EV2 _ _ _); [lia|lia|]. rewrite app_assoc.
    refine (seq0 _ _ _ _ _ _ _ _ _ _ _ _ EV3 _ _ (finish _ _ _ _ _ _ _ _ EV4)); lia. }
  right. cbn [kind_of variable]. split; [apply HV|]. split; [|apply HV]. intros UV. rewrite ZV. cbn [PtrSpec.etype].
  destruct (comparison op) eqn:C; [rewrite (CV eq_refl UV); reflexivity|reflexivity].
Qed.

Lemma c_un u op a : typed (EUn op a) -> correct Value a -> correct u (EUn op a).
Proof.
  intros (T & P) IH n L. destruct (IH n L) as (ee & c & n1 & E & L1 & DT & SH & DY).
  pose proof (promoted_bytes struct_size _ P) as B.
  assert (NVa : etype a <> TVoid) by (destruct (etype a); try discriminate; destruct P).
  assert (KA : kind_of ee <> EE_VOID) by (apply SH, NVa).
  assert (MAIN : forall s m r m' R W, eval (EUn op a) m = Some (r, m', R, W) -> ready s m -> placed c ->
     exists v o w s1, operate_unary struct_size (etype a) op v = Some w /\ r = Val w (match op with UOP_PLUS => o | _ => Nowhere end)
       /\ evolves n n1 W c s m s1 m' /\ stands Value n n1 R (etype a) ee s1 (Val v o) /\ 0 <= v < 256 ^ bytes (etype a)
       /\ (forall d, In d R -> valid_range d = true)).
  { intros s m r m' R W EV RD PL. cbn [PtrSpec.eval] in EV.
    destruct (yields (etype a) _) as [[[[[va oa] m1] Ra] Wa]|] eqn:Y; [|discriminate].
    destruct (operate_unary _ _ _) as [w|] eqn:OP; [|discriminate]. injection EV as <- <- <- <-.
    destruct (dyn_value _ _ _ _ _ _ _ _ _ _ _ _ _ DY T ltac:(lia) Y RD PL) as (s1 & EV1 & ST1 & RG1 & VR1).
    exists va, oa, w, s1. auto 7. }
  destruct (to_var_ok ee n1 KA) as (v & c1 & n2 & E1 & L2).
  assert (CASE : op = UOP_PLUS \/ op <> UOP_PLUS) by (destruct op; first [left; reflexivity | right; discriminate]).
  destruct CASE as [-> | NP].
  { exists (with_type (etype (EUn UOP_PLUS a)) ee), (c ++ []), n1. split.
    { cbn [PtrExpr.evaluate]. refine (gbind_ok _ _ _ _ _ _ _ _ _ _ _ E _). reflexivity. }
    split; [exact L1|]. split; [reflexivity|]. split.
    { split; [intros []|]. split; [discriminate|]. split; [intros _; exact KA|]. split; [|exact (proj2 (proj2 (proj2 (proj2 SH))))].
      cbn [PtrSpec.yields_constant]. apply SH. }
    intros s m r m' R W EV RD PL. destruct (placed_app _ _ PL) as [PL1 _].
    destruct (MAIN _ _ _ _ _ _ EV RD PL1) as (va & oa & w & s1 & OP & -> & EV1 & ST & RG & VR).
    cbn in OP. injection OP as <-. exists s1. split; [exact (finish _ _ _ _ _ _ _ _ EV1)|].
    apply stands_use, stands_with. exact ST. }
  set (d := {| id := n2; size := size v |}).
  exists (variable d (etype (EUn op a))), (c ++ c1 ++ [match op with UOP_NEG => INeg d v | _ => INot d v end] ++ []), (S n2). split.
  { cbn [PtrExpr.evaluate]. refine (gbind_ok _ _ _ _ _ _ _ _ _ _ _ E _).
    destruct op; [congruence| |]; refine (gbind_ok _ _ _ _ _ _ _ _ _ _ _ E1 _); reflexivity. }
  split; [lia|]. split; [reflexivity|]. split.
  { split; [intros []|]. split; [discriminate|]. split; [discriminate|]. split; discriminate. }
  intros s m r m' R W EV RD PL. destruct (placed_app _ _ PL) as [PL1 _].
  destruct (MAIN _ _ _ _ _ _ EV RD PL1) as (va & oa & w & s1 & OP & -> & EV1 & ST & RG & VR).
  destruct (to_var_runs Value ee n1 v c1 n2 (etype a) n R s1 m' va oa E1 DT ST ltac:(discriminate) (rd _ _ _ _ _ _ _ _ EV1) ltac:(lia) ltac:(lia) RG)
    as (s2 & EV2 & M2 & HV & ZV).
  assert (BP : 0 < bytes (etype a)) by lia. assert (PP : 0 < 256 ^ bytes (etype a)) by (apply pow256_pos; lia).
  pose proof (integer_cong struct_size (etype a) va BP) as IC.
  destruct (node_runs n2 d (fun d => match op with UOP_NEG => INeg d v | _ => INot d v end)
     (match op with UOP_NEG => - va | _ => - va - 1 end) s2 m' eq_refl ltac:(lia)) as (s3 & EV3 & M3 & H3).
  { destruct op; cbn [step]; rewrite (proj1 HV); reflexivity. }
  { exact (rd _ _ _ _ _ _ _ _ EV2). }
  exists s3. split.
  { refine (seq0 _ _ _ _ _ _ _ _ _ _ _ _ EV1 _ _ _); [lia|lia|].
    refine (seq0 _ _ _ _ _ _ _ _ _ _ _ _ EV2 _ _ (finish _ _ _ _ _ _ _ _ EV3)); lia. }
  right. cbn [kind_of variable]. split; [|split; [intros _; exact (ZV eq_refl)|apply H3]].
  rewrite (proj1 H3). cbn [d size]. rewrite (ZV eq_refl). destruct op; [congruence| |]; cbn [operate_unary] in OP.
  - apply fit_encode in OP. rewrite OP. unfold encode. rewrite <- (Z.sub_0_l va), <- (Z.sub_0_l (integer struct_size (etype a) va)). apply sub_cong; [exact PP|reflexivity|symmetry; exact IC].
  - injection OP as <-. unfold encode. apply sub_cong; [exact PP| |reflexivity].
    rewrite <- (Z.sub_0_l va), <- (Z.sub_0_l (integer struct_size (etype a) va)). apply sub_cong; [exact PP|reflexivity|symmetry; exact IC].
Qed.

Lemma c_comma u a b : typed (EComma a b) -> correct Unused a -> correct u b -> correct u (EComma a b).
Proof.
  intros (TA & TB & TT) IHa IHb n L.
  destruct (IHa n L) as (l & ca & n1 & E1 & L1 & DT1 & SH1 & DY1).
  destruct (IHb n1 ltac:(lia)) as (r & cb & n2 & E2 & L2 & DT2 & SH2 & DY2).
  eexists _, _, _. split.
  { cbn [PtrExpr.evaluate]. refine (gbind_ok _ _ _ _ _ _ _ _ _ _ _ E1 _). refine (gbind_ok _ _ _ _ _ _ _ _ _ _ _ E2 _). reflexivity. }
  split; [lia|]. split; [reflexivity|]. split.
  { split; [intros []|]. split; [discriminate|]. cbn [with_type kind_of PtrSpec.etype PtrSpec.yields_constant].
    destruct SH2 as (_ & _ & S3 & S4 & S5). auto. }
  intros s m r0 m' R W EV RD PL. cbn [PtrSpec.eval] in EV.
  destruct (eval a m) as [[[[ra m1] Ra] Wa]|] eqn:EA; [|discriminate].
  destruct (placed_app _ _ PL) as [PLa PL']. destruct (placed_app _ _ PL') as [PLb _].
  destruct (DY1 _ _ _ _ _ _ EA RD PLa) as (s1 & EV1 & _).
  destruct (void_dec (etype b)) as [VO | NV].
  - rewrite VO in EV. destruct (eval b m1) as [[[[rb m2] Rb] Wb]|] eqn:EB; [|discriminate]. injection EV as <- <- <- <-.
    destruct (DY2 _ _ _ _ _ _ EB (rd _ _ _ _ _ _ _ _ EV1) PLb) as (s2 & EV2 & _).
    exists s2. split; [refine (seq _ _ _ _ _ _ _ _ _ _ _ _ _ EV1 _ _ (finish _ _ _ _ _ _ _ _ EV2)); lia|]. right. exact I.
  - assert (EV' : match yields (etype b) (eval b m1) with
              | Some (v, o, m, R, W) => Some (Val v o, m, Ra ++ R, Wa ++ W)
              | None => None
              end = Some (r0, m', R, W)) by (destruct (etype b); first [exact EV | congruence]).
    destruct TT as [TT|TT]; [congruence|].
    destruct (yields (etype b) _) as [[[[[vb ob] m2] Rb] Wb]|] eqn:Y; [|discriminate]. injection EV' as <- <- <- <-.
    destruct (dyn_value _ _ _ _ _ _ _ _ _ _ _ _ _ DY2 TB (plain_bytes struct_size structs _ TT) Y (rd _ _ _ _ _ _ _ _ EV1) PLb) as (s2 & EV2 & ST2 & _).
    exists s2. split; [refine (seq _ _ _ _ _ _ _ _ _ _ _ _ _ EV1 _ _ (finish _ _ _ _ _ _ _ _ EV2)); lia|].
    apply stands_with. cbn [PtrSpec.etype]. eapply stands_more; [exact ST2|lia|lia|]. intros d D. apply in_or_app. tauto.
Qed.

Lemma assign_place t r m w m' R W : assign struct_size valid_range t r m w = Some (m', R, W) ->
  exists a, W = [(a, bytes t)] /\ valid_range (a, bytes t) = true
    /\ ((r = Obj a /\ m' = put m a (bytes t) w) \/ exists f wd, r = Bits a f wd).
Proof.
  intros H. destruct r as [|a|a f wd|]; cbn [assign] in H; try discriminate;
    destruct (valid_range _) eqn:V; try discriminate; injection H as <- <- <-; exists a; split; try reflexivity; split; try exact V.
  - left. split; reflexivity.
  - right. eexists _, _. reflexivity.
Qed.

Lemma c_assign u a b : typed (EAssign a b) -> (bit_field a = true -> u = Unused) ->
  correct Value a -> correct Value b -> correct u (EAssign a b).
Proof.
  intros (TA & TB & D & TT) BU IHa IHb n L.
  destruct (IHa n L) as (l & ca & n1 & E1 & L1 & DT1 & SH1 & DY1).
  destruct (IHb n1 ltac:(lia)) as (r & cb & n2 & E2 & L2 & DT2 & SH2 & DY2).
  assert (TT' : (etype b = etype a /\ plain_value (etype a)) \/ (scalar (etype b) /\ scalar (etype a))).
  { destruct TT as [[X Y] | [X Y]]; [right; split; assumption|left; split; [congruence|assumption]]. }
  assert (NVa : etype a <> TVoid).
  { intros X. destruct TT' as [[_ Y] | [_ Y]]; rewrite X in Y; [destruct Y as [Y | Y]|]; destruct Y. }
  assert (NVb : etype b <> TVoid).
  { intros X. destruct TT' as [[Y _] | [Y _]]; [congruence|]. rewrite X in Y. destruct Y. }
  assert (BA : 0 <= bytes (etype a)).
  { destruct TT' as [[_ Y] | [_ Y]]; [apply plain_bytes; assumption|pose proof (scalar_bytes struct_size _ Y); lia]. }
  assert (BB : 0 <= bytes (etype b)).
  { destruct TT' as [[-> _] | [Y _]]; [exact BA|pose proof (scalar_bytes struct_size _ Y); lia]. }
  assert (KB : kind_of r <> EE_VOID) by (apply SH2, NVb).
  destruct (evaluated_cast_ok r (etype a) n2 (or_introl KB)) as (r0 & c0 & n3 & E3 & L3 & DR & KV & KC & KF).
  assert (KR : kind_of r0 <> EE_VOID) by (intros X; destruct (KV X); congruence).
  assert (KL : (exists p, kind_of l = EE_POINTER p) \/ ((exists p f w sx, kind_of l = EE_BITFIELD_POINTER p f w sx) /\ bytes (data_type r0) <= 8)).
  { destruct (bit_field a) eqn:BF.
    - right. destruct SH1 as (_ & S2 & _ & _ & S5). destruct (S2 BF) as (p & f & w & sx & K). split; [eauto|].
      rewrite DR. pose proof (scalar_bytes struct_size _ (integer_scalar _ (S5 _ _ _ _ K))). lia.
    - left. exact (proj1 SH1 D BF). }
  destruct (assign_ee_ok l r0 n3 KR KL) as (c1 & n4 & E4 & L4).
  eexists _, _, _. split.
  { cbn [PtrExpr.evaluate]. refine (gbind_ok _ _ _ _ _ _ _ _ _ _ _ E1 _). refine (gbind_ok _ _ _ _ _ _ _ _ _ _ _ E2 _).
    refine (gbind_ok _ _ _ _ _ _ _ _ _ _ _ E3 _). refine (gbind_ok _ _ _ _ _ _ _ _ _ _ _ E4 _). reflexivity. }
  split; [lia|]. split; [reflexivity|]. split.
  { split; [intros []|]. split; [discriminate|]. cbn [with_type kind_of]. split; [intros _; exact KR|]. split.
    - cbn [PtrSpec.yields_constant]. intros YC t' w X. destruct (KC _ _ X) as [Q X']. rewrite DT2 in Q.
      rewrite Q, (proj2 (ty_eqb_eq _ _) eq_refl) in YC. cbn [andb] in YC.
      exact (proj1 (proj2 (proj2 (proj2 SH2))) YC _ _ X').
    - intros p f w sx X. destruct (KF _ _ _ _ X) as [Q X']. rewrite DT2 in Q. cbn [PtrSpec.etype]. rewrite <- Q.
      exact (proj2 (proj2 (proj2 (proj2 SH2))) _ _ _ _ X'). }
  intros s m rr m' R W EV RD PL. cbn [PtrSpec.eval] in EV.
  destruct (eval a m) as [[[[ra m1] Ra] Wa]|] eqn:EA; [|discriminate].
  destruct (yields (etype b) _) as [[[[[vb ob] m2] Rb] Wb]|] eqn:Y2; [|discriminate].
  fold (converted (etype b) (etype a) vb) in EV.
  destruct (assign _ _ _ _ _ _) as [[[m3 R3] W3]|] eqn:AS; [|discriminate].
  destruct (_ && _ && _) eqn:CK in EV; [|discriminate]. injection EV as <- <- <- <-.
  apply andb_prop in CK. destruct CK as [CK MS]. apply andb_prop in CK. destruct CK as [UN AP].
  destruct (placed_app _ _ PL) as [PLa PL']. destruct (placed_app _ _ PL') as [PLb PL2]. destruct (placed_app _ _ PL2) as [_ PL3].
  destruct (placed_app _ _ PL3) as [PL4 _].
  pose proof (place_of a m ra m1 Ra Wa TA (proj1 (proj2 (proj2 RD))) D EA) as PLC.
  destruct (place_and_value _ _ _ _ _ _ _ _ _ _ _ _ _ _ _ _ _ _ _ _ DY1 DY2 L1 L2 TA TB BB D EA Y2 PLC RD PLa PLb)
    as (s2 & EV2 & SL & SR & RB & KA & VR).
  destruct (evaluated_cast_runs r (etype b) (etype a) n2 r0 c0 n3 n Rb s2 m2 vb ob E3 DT2 SR TT' (rd _ _ _ _ _ _ _ _ EV2) ltac:(lia) RB VR)
    as (s3 & EV3 & M3 & ST3).
  set (o' := if ty_eqb (etype b) (etype a) then ob else Nowhere) in *. set (w := converted (etype b) (etype a) vb) in *.
  assert (RW : 0 <= w < 256 ^ bytes (etype a)).
  { unfold w. destruct TT' as [[Q _] | [_ Y]]; [|apply converted_range; assumption].
    unfold converted. rewrite Q, (proj2 (ty_eqb_eq _ _) eq_refl). rewrite <- Q. exact RB. }
  assert (SL3 : stands Value n n3 [] (etype a) l s3 ra) by (eapply place_keep; [exact SL|exact EV3|lia|lia|exact PLC]).
  destruct (assign_ee_runs l r0 n3 c1 n4 (etype a) n n Rb s3 m2 w o' ra m3 R3 W3 E4 DT1 DR KR SL3 ST3 ltac:(lia) BA RW VR PL4 AS
     (rd _ _ _ _ _ _ _ _ EV3) ltac:(lia)) as (s4 & EV4).
  exists s4. split.
  { rewrite app_assoc, app_assoc. refine (seq _ _ _ _ _ _ _ _ _ _ _ _ _ EV2 _ _ _); [lia|lia|].
    refine (seqr _ _ _ _ _ _ _ _ _ _ _ _ EV3 _ _ (finish _ _ _ _ _ _ _ _ EV4)); lia. }
  destruct (assign_place _ _ _ _ _ _ _ AS) as (ad & -> & VA & [[-> ->] | (f & wd & ->)]).
  2:{ left. apply BU. apply KA. }
  cbn [assigned]. apply stands_use, stands_with. cbn [PtrSpec.etype].
  eapply stands_more with (R := Rb); [|reflexivity|reflexivity|intros d Hd; rewrite !in_app_iff; tauto].
  eapply stands_keep_gen; [exact ST3|exact EV4|lia|lia|exact VR|].
  intros rg IN OR. cbn [forallb andb] in MS. rewrite Bool.andb_true_r in MS.
  destruct OR as [OR | OR]; rewrite OR in MS; cbn [may_store] in MS.
  - apply Bool.orb_true_iff in MS. destruct MS as [MS | MS].
    + right. split; [exact OR|]. apply andb_prop in MS. destruct MS as [Q1 Q2]. apply Z.eqb_eq in Q1, Q2. cbn [fst snd] in Q1, Q2.
      rewrite Q1, Q2. rewrite (get_same _ _ _ _ (proj1 (proj2 (rd _ _ _ _ _ _ _ _ EV4))) VA). rewrite get_put by exact BA.
      apply Z.mod_small, RW.
    + left. intros d x [<- | []] X Y. exact (disjoint_not _ _ _ MS X Y).
  - left. intros d x [<- | []] X Y. exact (disjoint_not _ _ _ MS X Y).
Qed.

Lemma converted_convert a b w : scalar b -> 0 <= w < 256 ^ bytes a -> converted a b w = convert struct_size a b w \/ a = TInt ST_BOOL /\ b = TInt ST_BOOL.
Proof.
  intros SB RG. unfold converted. destruct (ty_eqb a b) eqn:Q; [|left; reflexivity]. apply ty_eqb_eq in Q. subst b.
  destruct (is_bool a) eqn:IB; [right; apply is_bool_eq in IB; tauto|]. left. symmetry. apply convert_same; assumption.
Qed.

Lemma place_kind a l : shape a l -> designates a ->
  (exists p, kind_of l = EE_POINTER p) \/ (exists p f w sx, kind_of l = EE_BITFIELD_POINTER p f w sx).
Proof.
  intros (S1 & S2 & _) D. destruct (bit_field a) eqn:BF; [right; exact (S2 eq_refl)|left; exact (S1 D eq_refl)].
Qed.

Lemma c_assign_op u op pf a b : typed (EAssignOp op pf a b) -> (bit_field a = true -> pf = false -> u = Unused) ->
  correct Value a -> correct Value b -> correct u (EAssignOp op pf a b).
Proof.
  intros (TA & TB & D & IA & PB & O) BU IHa IHb n L.
  destruct (IHa n L) as (l & ca & n1 & E1 & L1 & DT1 & SH1 & DY1).
  destruct (IHb n1 ltac:(lia)) as (r & cb & n2 & E2 & L2 & DT2 & SH2 & DY2).
  pose proof (integer_scalar _ IA) as SA. pose proof (promoted_scalar _ PB) as SB.
  pose proof (scalar_bytes struct_size _ SA) as BA. pose proof (scalar_bytes struct_size _ SB) as BB.
  assert (NVb : etype b <> TVoid) by (intros X; rewrite X in SB; destruct SB).
  assert (NVa : etype a <> TVoid) by (intros X; rewrite X in SA; destruct SA).
  assert (KL : kind_of l <> EE_VOID) by (apply SH1, NVa).
  assert (KR : kind_of r <> EE_VOID) by (apply SH2, NVb).
  destruct (to_var_ok l n2 KL) as (old & c1 & n3 & E3 & L3).
  destruct (to_var_ok r n3 KR) as (rv & c2 & n4 & E4 & L4).
  destruct (variable_cast_ok old (etype a) (etype b) n4) as (lv & c3 & n5 & E5 & L5).
  destruct (binary_node_ok (etype b) op lv rv n5 (or_introl (conj O PB))) as (v & c4 & E6).
  destruct (variable_cast_ok v (etype b) (etype a) (S n5)) as (nw & c5 & n6 & E7 & L7).
  destruct (assign_to_ok l nw n6 (place_kind a l SH1 D)) as (c6 & n7 & E8 & L8).
  eexists _, _, _. split.
  { cbn [PtrExpr.evaluate]. refine (gbind_ok _ _ _ _ _ _ _ _ _ _ _ E1 _). refine (gbind_ok _ _ _ _ _ _ _ _ _ _ _ E2 _).
    refine (gbind_ok _ _ _ _ _ _ _ _ _ _ _ E3 _). refine (gbind_ok _ _ _ _ _ _ _ _ _ _ _ E4 _). rewrite DT1.
    refine (gbind_ok _ _ _ _ _ _ _ _ _ _ _ E5 _). refine (gbind_ok _ _ _ _ _ _ _ _ _ _ _ E6 _).
    refine (gbind_ok _ _ _ _ _ _ _ _ _ _ _ E7 _). refine (gbind_ok _ _ _ _ _ _ _ _ _ _ _ E8 _). reflexivity. }
  split; [lia|]. split; [reflexivity|]. split; [plain_shape|].
  intros s m rr m' R W EV RD PL. cbn [PtrSpec.eval] in EV.
  destruct (eval a m) as [[[[ra m1] Ra] Wa]|] eqn:EA; [|discriminate].
  destruct (yields (etype b) _) as [[[[[vb ob] m2] Rb] Wb]|] eqn:Y2; [|discriminate].
  destruct (value_of _ _ _) as [[[vo Rold] oo]|] eqn:VO; [|discriminate].
  destruct (operate _ _ _ _) as [w|] eqn:OP; [|discriminate].
  destruct (assign _ _ _ _ _ _) as [[[m3 R3] W3]|] eqn:AS; [|discriminate].
  destruct (_ && _) eqn:CK in EV; [|discriminate]. injection EV as <- <- <- <-.
  destruct (placed_app _ _ PL) as [PLa PL']. destruct (placed_app _ _ PL') as [PLb _].
  pose proof (place_of a m ra m1 Ra Wa TA (proj1 (proj2 (proj2 RD))) D EA) as PLC.
  destruct (place_and_value _ _ _ _ _ _ _ _ _ _ _ _ _ _ _ _ _ _ _ _ DY1 DY2 L1 L2 TA TB ltac:(lia) D EA Y2 PLC RD PLa PLb)
    as (s2 & EV2 & SL & SR & RB & KA & VR).
  assert (SLV : stands Value n n2 ([] ++ Rold) (etype a) l s2 (Val vo oo)).
  { eapply stands_value; [exact SL|exact VO|apply (rd _ _ _ _ _ _ _ _ EV2)|]. intros x ->. exact (proj1 KA). }
  assert (VOR : 0 <= vo < 256 ^ bytes (etype a)).
  { refine (proj1 (value_sound G fields struct_size valid_range a ra m2 vo Rold oo ltac:(lia) KA _ VO)). apply (rd _ _ _ _ _ _ _ _ EV2). }
  destruct (read_two l r (etype a) (etype b) n2 n n ([] ++ Rold) Rb vo oo vb ob s2 m2 old c1 n3 rv c2 n4 E3 E4 DT1 DT2 SLV SR
     L3 L4 (rd _ _ _ _ _ _ _ _ EV2) ltac:(lia) ltac:(lia) ltac:(lia) VOR RB VR) as (s3 & EV3 & M3 & HO & HR & ZO & ZR).
  destruct (variable_cast_runs old (etype a) (etype b) n4 lv c3 n5 s3 m2 vo E5 SA SB HO ZO VOR (rd _ _ _ _ _ _ _ _ EV3) ltac:(lia))
    as (s4 & EV4 & M4 & HL & ZL).
  assert (NB : is_bool (etype b) = false) by (apply promoted_bool, PB).
  assert (CE : converted (etype a) (etype b) vo = convert struct_size (etype a) (etype b) vo).
  { destruct (converted_convert (etype a) (etype b) vo SB VOR) as [X | [_ X]]; [exact X|]. rewrite X in NB. discriminate. }
  rewrite CE in HL.
  assert (HR4 := holds_keep _ _ _ _ _ _ _ _ _ _ _ HR EV4 ltac:(lia) L5).
  pose proof (convert_range struct_size (etype a) (etype b) vo SB) as RL.
  destruct (binary_node_runs (etype b) op lv rv n5 v c4 (S n5) s4 m2 _ vb w E6 (or_introl (conj O PB)) HL HR4 ZL RL RB OP
     (rd _ _ _ _ _ _ _ _ EV4) ltac:(lia)) as (s5 & EV5 & M5 & HV & ZV & _).
  assert (RW : 0 <= w < 256 ^ bytes (etype b)).
  { pose proof (op_arith struct_size _ _ _ _ _ PB O OP) as X. rewrite X. apply Z.mod_pos_bound, pow256_pos. lia. }
  destruct (variable_cast_runs v (etype b) (etype a) (S n5) nw c5 n6 s5 m2 w E7 SB SA HV ZV RW (rd _ _ _ _ _ _ _ _ EV5) ltac:(lia))
    as (s6 & EV6 & M6 & HN & ZN).
  assert (CE' : converted (etype b) (etype a) w = convert struct_size (etype b) (etype a) w).
  { destruct (converted_convert (etype b) (etype a) w SA RW) as [X | [X _]]; [exact X|]. rewrite X in NB. discriminate. }
  rewrite CE' in HN.
  assert (EV36 : evolves n2 n6 [] ((c1 ++ c2) ++ c3 ++ c4 ++ c5) s2 m2 s6 m2).
  { refine (seq0 _ _ _ _ _ _ _ _ _ _ _ _ EV3 _ _ _); [lia|lia|]. refine (seq0 _ _ _ _ _ _ _ _ _ _ _ _ EV4 _ _ _); [lia|lia|].
    refine (seq0 _ _ _ _ _ _ _ _ _ _ _ _ EV5 _ _ EV6); lia. }
  assert (SL6 : stands Value n n6 [] (etype a) l s6 ra) by (eapply place_keep; [exact SL|exact EV36|lia|lia|exact PLC]).
  destruct (assign_to_runs l nw n6 c6 n7 (etype a) n ra s6 m2 _ m3 R3 W3 E8 SL6 HN ZN ltac:(lia) AS (rd _ _ _ _ _ _ _ _ EV36) ltac:(lia)) as (s7 & EV7).
  exists s7. split.
  { assert (Q : evolves n n7 ((Wa ++ Wb) ++ W3) ((ca ++ cb) ++ ((c1 ++ c2) ++ c3 ++ c4 ++ c5) ++ c6 ++ []) s m s7 m3).
    { refine (seq _ _ _ _ _ _ _ _ _ _ _ _ _ EV2 _ _ _); [lia|lia|].
      refine (seqr _ _ _ _ _ _ _ _ _ _ _ _ EV36 _ _ (finish _ _ _ _ _ _ _ _ EV7)); lia. }
    rewrite <- !app_assoc in Q. exact Q. }
  assert (EV46 : evolves n4 n6 [] (c3 ++ c4 ++ c5) s3 m2 s6 m2).
  { refine (seq0 _ _ _ _ _ _ _ _ _ _ _ _ EV4 _ _ _); [lia|lia|]. refine (seq0 _ _ _ _ _ _ _ _ _ _ _ _ EV5 _ _ EV6); lia. }
  assert (HO4 := holds_keep _ _ _ _ _ _ _ _ _ _ _ HO EV46 ltac:(lia) ltac:(lia)).
  assert (HO7 := holds_keep _ _ _ _ _ _ _ _ _ _ _ HO4 EV7 ltac:(lia) ltac:(lia)).
  assert (HN7 := holds_keep _ _ _ _ _ _ _ _ _ _ _ HN EV7 ltac:(lia) ltac:(lia)).
  destruct pf.
  - right. cbn [kind_of variable]. split; [apply HO7|]. split; [|apply HO7]. intros _. exact ZO.
  - destruct (assign_place _ _ _ _ _ _ _ AS) as (ad & _ & _ & [[-> _] | (f & wd & ->)]).
    + right. cbn [assigned kind_of variable]. split; [apply HN7|]. split; [|apply HN7]. intros _. exact ZN.
    + left. apply BU; [apply KA|reflexivity].
Qed.

Lemma c_assign_ptr u sub pf a b : typed (EAssignPtr sub pf a b) -> correct Value a -> correct Value b -> correct u (EAssignPtr sub pf a b).
Proof.
  intros (TA & TB & II & (t & ET & BT) & D & BF) IHa IHb n L.
  destruct (IHa n L) as (p & ca & n1 & E1 & L1 & DT1 & SH1 & DY1).
  destruct (IHb n1 ltac:(lia)) as (i & cb & n2 & E2 & L2 & DT2 & SH2 & DY2).
  assert (KP : kind_of p <> EE_VOID) by (apply SH1; rewrite ET; discriminate).
  assert (NVI : etype b <> TVoid) by (destruct (etype b); try discriminate; destruct II).
  assert (KI : kind_of i <> EE_VOID) by (apply SH2, NVI).
  destruct (evaluated_cast_ok i (TInt ST_ULONG) n2 (or_introl KI)) as (ri & c0 & n3 & E3 & L3 & DR & KR & _).
  assert (KRI : kind_of ri <> EE_VOID) by (intros X; destruct (KR X); [discriminate|exact (KI H)]).
  destruct (to_var_ok p n3 KP) as (pv & c1 & n4 & E4 & L4).
  destruct (to_var_ok ri n4 KRI) as (iv & c2 & n5 & E5 & L5).
  set (rv := {| id := S (S n5); size := size pv |}).
  destruct (assign_to_ok p rv (S (S (S n5))) (place_kind a p SH1 D)) as (c3 & n6 & E6 & L6).
  eexists _, _, _. split.
  { cbn [PtrExpr.evaluate]. refine (gbind_ok _ _ _ _ _ _ _ _ _ _ _ E1 _). refine (gbind_ok _ _ _ _ _ _ _ _ _ _ _ E2 _).
    refine (gbind_ok _ _ _ _ _ _ _ _ _ _ _ E3 _). refine (gbind_ok _ _ _ _ _ _ _ _ _ _ _ E4 _). refine (gbind_ok _ _ _ _ _ _ _ _ _ _ _ E5 _).
    refine (gbind_ok _ _ _ _ _ _ _ _ _ _ _ (size_const a t n5 ET) _).
    refine (gbind_ok _ _ _ _ _ _ _ _ _ _ _ eq_refl _). refine (gbind_ok _ _ _ _ _ _ _ _ _ _ _ eq_refl _).
    refine (gbind_ok _ _ _ _ _ _ _ _ _ _ _ E6 _). reflexivity. }
  split; [lia|]. split; [reflexivity|]. split; [plain_shape|].
  intros s m rr m' R W EV RD PL. cbn [PtrSpec.eval] in EV.
  assert (BA : bytes (etype a) = 8) by (rewrite ET; reflexivity).
  assert (BB : 0 <= bytes (etype b)) by (pose proof (scalar_bytes struct_size _ (integer_scalar _ II)); lia).
  destruct (eval a m) as [[[[ra m1] Ra] Wa]|] eqn:EA; [|discriminate].
  destruct (yields (etype b) _) as [[[[[vi oi] m2] Rb] Wb]|] eqn:Y2; [|discriminate].
  destruct (value_of _ _ _) as [[[vo Rold] oo]|] eqn:VO; [|discriminate].
  destruct (address _) as [v|] eqn:AD; [|discriminate].
  destruct (assign _ _ _ _ _ _) as [[[m3 R3] W3]|] eqn:AS; [|discriminate].
  destruct (_ && _) eqn:CK in EV; [|discriminate]. injection EV as <- <- <- <-.
  destruct (placed_app _ _ PL) as [PLa PL']. destruct (placed_app _ _ PL') as [PLb _].
  pose proof (place_of a m ra m1 Ra Wa TA (proj1 (proj2 (proj2 RD))) D EA) as PLC.
  destruct (place_and_value _ _ _ _ _ _ _ _ _ _ _ _ _ _ _ _ _ _ _ _ DY1 DY2 L1 L2 TA TB BB D EA Y2 PLC RD PLa PLb)
    as (s2 & EV2 & SL & SR & RB & KA & VR).
  assert (SLV : stands Value n n2 ([] ++ Rold) (etype a) p s2 (Val vo oo)).
  { eapply stands_value; [exact SL|exact VO|apply (rd _ _ _ _ _ _ _ _ EV2)|]. intros x ->. exact (proj1 KA). }
  destruct (value_sound G fields struct_size valid_range a ra m2 vo Rold oo ltac:(lia) KA (proj1 (proj2 (proj2 (rd _ _ _ _ _ _ _ _ EV2)))) VO) as [VOR VRO].
  assert (AD' : address (if sub then vo - integer struct_size (etype b) vi * bytes t else vo + integer struct_size (etype b) vi * bytes t) = Some v)
    by (rewrite ET in AD; exact AD).
  destruct (scaled_runs sub p i (etype a) (etype b) t n2 n n ([] ++ Rold) Rb vo oo vi oi s2 m2 pv c1 n4 ri c0 n3 iv c2 n5 v
    E3 E4 E5 DT1 DT2 DR ET BT II L3 L4 L5 ltac:(lia) SLV SR VOR RB VRO VR (rd _ _ _ _ _ _ _ _ EV2) AD') as (s3 & EV3 & M3 & H3 & Z3 & H3').
  fold rv in EV3, H3, Z3.
  assert (SL3 : stands Value n (S (S (S n5))) [] (etype a) p s3 ra) by (eapply place_keep; [exact SL|exact EV3|lia|lia|exact PLC]).
  destruct (assign_to_runs p rv (S (S (S n5))) c3 n6 (etype a) n ra s3 m2 v m3 R3 W3 E6 SL3 H3 ltac:(congruence) ltac:(lia) AS (rd _ _ _ _ _ _ _ _ EV3) ltac:(lia)) as (s4 & EV4).
  exists s4. split.
  { rewrite app_assoc, app_assoc. refine (seq _ _ _ _ _ _ _ _ _ _ _ _ _ EV2 _ _ _); [lia|lia|].
    assert (Q := seqr _ _ _ _ _ _ _ _ _ _ _ _ EV3 ltac:(lia) L6 (finish _ _ _ _ _ _ _ _ EV4)).
    rewrite <- !app_assoc in Q. exact Q. }
  assert (HN := holds_keep _ _ _ _ _ _ _ _ _ _ _ H3 EV4 ltac:(lia) ltac:(lia)).
  assert (HO := holds_keep _ _ _ _ _ _ _ _ _ _ _ H3' EV4 ltac:(lia) ltac:(lia)).
  assert (ZP : size pv = 8) by exact Z3.
  right. cbn [kind_of variable PtrSpec.etype]. rewrite BA. destruct pf; [split; [apply HO|split; [intros _; exact ZP|apply HO]]|split; [apply HN|split; [intros _; exact Z3|apply HN]]].
Qed.

(** Conditional expressions. *)
Lemma block_ok X (x : gen X) n a c n' : x n = Ok (a, c, n') -> block x n = Ok ((a, c), [], n').
Proof. intros H. unfold block. rewrite H. reflexivity. Qed.
Lemma steps_one i s s' : step tmp i s = Ok s' -> steps tmp [i] s = Ok s'.
Proof. intros H. cbn [steps]. rewrite H. reflexivity. Qed.
Lemma placed_if c t f : placed [IIf c t f] -> placed t /\ placed f.
Proof.
  intros H. split; intros d k X; apply H; cbn [flat_map allocated]; rewrite app_nil_r; apply in_or_app; tauto.
Qed.
Lemma placed_phi c t ta f fa d : placed [IPhi c t ta f fa d] -> placed t /\ placed f.
Proof.
  intros H. split; intros x k X; apply H; cbn [flat_map allocated]; rewrite app_nil_r; apply in_or_app; tauto.
Qed.
Lemma if_runs n n' W c t f s m s' m' : evolves n n' W (if word s c =? 0 then f else t) s m s' m' ->
  evolves n n' W [IIf c t f] s m s' m'.
Proof.
  intros (H1 & H2). split; [|exact H2]. apply steps_one. rewrite step_if. destruct (_ =? 0); exact H1.
Qed.
Lemma phi_runs n k W c t ta f fa s m s' m' (d := {| id := k; size := 8 |}) :
  evolves n k W (if word s c =? 0 then f else t) s m s' m' -> (start <= n)%nat -> (n <= k)%nat ->
  evolves n (S k) W [IPhi c t ta f fa d] s m (set_node s' d (word s' (if word s c =? 0 then fa else ta))) m'.
Proof.
  intros EV L1 L2.
  set (w := word s' (if word s c =? 0 then fa else ta)).
  assert (EV2 : evolves k (S k) [] [IConst d w] s' m' (set_node s' d w) m').
  { refine (evolves_node _ _ _ _ _ _ _ _ _ (rd _ _ _ _ _ _ _ _ EV)); [reflexivity|lia|reflexivity]. }
  assert (H1 := proj1 EV).
  destruct (seq0 _ _ _ _ _ _ _ _ _ _ _ _ EV L2 (Nat.le_succ_diag_r k) EV2) as (_ & H2).
  split; [|exact H2]. apply steps_one. rewrite step_phi. subst w. destruct (_ =? 0); rewrite H1; reflexivity.
Qed.

Lemma c_cond_void u c a b : typed (ECond c a b) -> etype a = TVoid ->
  correct Condition c -> correct Unused a -> correct Unused b -> correct u (ECond c a b).
Proof.
  intros (TC & TA & TB & SC & ET & _) VO IHc IHa IHb n L.
  pose proof (scalar_bytes struct_size _ SC) as BC.
  destruct (IHc n L) as (r & cc & n1 & E1 & L1 & DT1 & SH1 & DY1).
  assert (KC : kind_of r <> EE_VOID) by (apply SH1; intros X; rewrite X in SC; destruct SC).
  destruct (to_var_ok r n1 KC) as (cv & c1 & n2 & E2 & L2).
  destruct (IHa n2 ltac:(lia)) as (ea & ca & n3 & E3 & L3 & DT3 & SH3 & DY3).
  destruct (IHb n3 ltac:(lia)) as (eb & cb & n4 & E4 & L4 & DT4 & SH4 & DY4).
  eexists _, _, _. split.
  { cbn [PtrExpr.evaluate PtrSpec.etype]. refine (gbind_ok _ _ _ _ _ _ _ _ _ _ _ E1 _). refine (gbind_ok _ _ _ _ _ _ _ _ _ _ _ E2 _).
    rewrite VO. refine (gbind_ok _ _ _ _ _ _ _ _ _ _ _ (block_ok _ _ _ _ _ _ E3) _).
    refine (gbind_ok _ _ _ _ _ _ _ _ _ _ _ (block_ok _ _ _ _ _ _ E4) _).
    refine (gbind_ok _ _ _ _ _ _ _ _ _ _ _ eq_refl _). reflexivity. }
  split; [lia|]. split; [cbn [data_type PtrSpec.etype]; congruence|]. split.
  { split; [intros []|]. split; [discriminate|]. split; [intros X; destruct (X VO)|]. split; [intros _; discriminate|discriminate]. }
  intros s m rr m' R W EV RD PL. cbn [PtrSpec.eval] in EV.
  destruct (placed_app _ _ PL) as [PLc PL']. destruct (placed_app _ _ PL') as [_ PL2]. cbn [app snd] in PL2.
  destruct (placed_if _ _ _ PL2) as [PLa PLb].
  destruct (yields (etype c) _) as [[[[[vc oc] m1] Rc] Wc]|] eqn:Y; [|discriminate].
  destruct (dyn_value _ _ _ _ _ _ _ _ _ _ _ _ _ DY1 TC ltac:(lia) Y RD PLc) as (s1 & EV1 & ST1 & RG1 & VR1).
  destruct (to_var_runs Condition r n1 cv c1 n2 (etype c) n Rc s1 m1 vc oc E2 DT1 ST1 ltac:(discriminate) (rd _ _ _ _ _ _ _ _ EV1) ltac:(lia) ltac:(lia) RG1)
    as (s2 & EV2 & M2 & HC & _).
  rewrite VO in EV.
  destruct (eval _ m1) as [[[[ra m3] Ra] Wa]|] eqn:EA in EV; [|discriminate]. injection EV as <- <- <- <-.
  assert (AR : exists s3, evolves n2 n4 Wa (if word s2 cv =? 0 then cb else ca) s2 m1 s3 m3).
  { rewrite (proj1 HC). destruct (vc =? 0).
    - destruct (DY4 _ _ _ _ _ _ EA (rd _ _ _ _ _ _ _ _ EV2) PLb) as (s3 & EV3 & _). exists s3.
      refine (frame_weaken _ _ _ _ _ _ _ _ _ _ EV3 _ _); lia.
    - destruct (DY3 _ _ _ _ _ _ EA (rd _ _ _ _ _ _ _ _ EV2) PLa) as (s3 & EV3 & _). exists s3.
      refine (frame_weaken _ _ _ _ _ _ _ _ _ _ EV3 _ _); lia. }
  destruct AR as (s3 & EV3). exists s3. split; [|right; exact I].
  refine (seq _ _ _ _ _ _ _ _ _ _ _ _ _ EV1 _ _ _); [lia|lia|].
  refine (seqr _ _ _ _ _ _ _ _ _ _ _ _ EV2 _ _ _); [lia|lia|]. exact (if_runs _ _ _ _ _ _ _ _ _ _ EV3).
Qed.

Lemma c_cond u c a b : typed (ECond c a b) -> etype a <> TVoid ->
  correct Condition c -> correct Value a -> correct Value b -> correct u (ECond c a b).
Proof.
  intros (TC & TA & TB & SC & ET & TT) NV IHc IHa IHb n L. destruct TT as [TT|TT]; [congruence|].
  pose proof (scalar_bytes struct_size _ SC) as BC. pose proof (plain_bytes struct_size structs _ TT) as BA.
  destruct (IHc n L) as (r & cc & n1 & E1 & L1 & DT1 & SH1 & DY1).
  assert (KC : kind_of r <> EE_VOID) by (apply SH1; intros X; rewrite X in SC; destruct SC).
  destruct (to_var_ok r n1 KC) as (cv & c1 & n2 & E2 & L2).
  destruct (IHa n2 ltac:(lia)) as (ea & ca & n3 & E3 & L3 & DT3 & SH3 & DY3).
  assert (KA : kind_of ea <> EE_VOID) by (apply SH3, NV).
  destruct (to_address_ok ea n3 KA) as (xa & da & n4 & E4 & L4).
  destruct (IHb n4 ltac:(lia)) as (eb & cb & n5 & E5 & L5 & DT5 & SH5 & DY5).
  assert (KB : kind_of eb <> EE_VOID) by (apply SH5; congruence).
  destruct (to_address_ok eb n5 KB) as (xb & db & n6 & E6 & L6).
  assert (BL1 := block_ok _ _ _ _ _ _ (gbind_ok _ _ (evaluate a) (fun l => to_address l) _ _ _ _ _ _ _ E3 E4)).
  assert (BL2 := block_ok _ _ _ _ _ _ (gbind_ok _ _ (evaluate b) (fun l => to_address l) _ _ _ _ _ _ _ E5 E6)).
  set (d := {| id := n6; size := 8 |}).
  assert (EQ : evaluate (ECond c a b) n = Ok (pointer d (etype a), cc ++ c1 ++ [] ++ [] ++ [IPhi cv (ca ++ da) xa (cb ++ db) xb d] ++ [], S n6)).
  { cbn [PtrExpr.evaluate PtrSpec.etype]. refine (gbind_ok _ _ _ _ _ _ _ _ _ _ _ E1 _). refine (gbind_ok _ _ _ _ _ _ _ _ _ _ _ E2 _).
    assert (Q : (do x <- block (do l <- evaluate a; to_address l);
                 do y <- block (do l <- evaluate b; to_address l);
                 do d0 <- new_node 8 (fun d0 => IPhi cv (snd x) (fst x) (snd y) (fst y) d0);
                 ret (pointer d0 (etype a))) n2 = Ok (pointer d (etype a), [] ++ [] ++ [IPhi cv (ca ++ da) xa (cb ++ db) xb d] ++ [], S n6)).
    { refine (gbind_ok _ _ _ _ _ _ _ _ _ _ _ BL1 _). refine (gbind_ok _ _ _ _ _ _ _ _ _ _ _ BL2 _).
      refine (gbind_ok _ _ _ _ _ _ _ _ _ _ _ eq_refl _). reflexivity. }
    revert Q NV. destruct (etype a); intros Q NV; first [exact Q | congruence]. }
  eexists _, _, _. split; [exact EQ|]. split; [lia|]. split; [reflexivity|]. split; [plain_shape|].
  intros s m rr m' R W EV RD PL. cbn [PtrSpec.eval] in EV.
  destruct (placed_app _ _ PL) as [PLc PL']. destruct (placed_app _ _ PL') as [_ PL2]. cbn [app] in PL2.
  destruct (placed_phi _ _ _ _ _ _ PL2) as [PLa PLb].
  destruct (placed_app _ _ PLa) as [PLa1 PLa2]. destruct (placed_app _ _ PLb) as [PLb1 PLb2].
  destruct (yields (etype c) _) as [[[[[vc oc] m1] Rc] Wc]|] eqn:Y; [|discriminate].
  destruct (dyn_value _ _ _ _ _ _ _ _ _ _ _ _ _ DY1 TC ltac:(lia) Y RD PLc) as (s1 & EV1 & ST1 & RG1 & VR1).
  destruct (to_var_runs Condition r n1 cv c1 n2 (etype c) n Rc s1 m1 vc oc E2 DT1 ST1 ltac:(discriminate) (rd _ _ _ _ _ _ _ _ EV1) ltac:(lia) ltac:(lia) RG1)
    as (s2 & EV2 & M2 & HC & _).
  assert (EV' : match yields (etype a) (eval (if vc =? 0 then b else a) m1) with
              | Some (v, o, m, R, W) => Some (Val v o, m, Rc ++ R, Wc ++ W)
              | None => None
              end = Some (rr, m', R, W)).
  { replace (etype (if vc =? 0 then b else a)) with (etype a) in EV by (destruct (vc =? 0); congruence).
    revert EV NV. destruct (etype a); intros EV NV; first [exact EV | congruence]. }
  destruct (yields (etype a) (eval (if vc =? 0 then b else a) m1)) as [[[[[va oa] m3] Ra] Wa]|] eqn:EA; [|discriminate].
  injection EV' as <- <- <- <-.
  assert (AR : exists s3, evolves n2 n6 Wa (if word s2 cv =? 0 then cb ++ db else ca ++ da) s2 m1 s3 m3
     /\ let x := if word s2 cv =? 0 then xb else xa in
        0 <= word s3 x < 2 ^ 64 /\ get (mem_of s3) (word s3 x) (bytes (etype a)) = va
        /\ settled n n6 Ra oa (word s3 x, bytes (etype a))).
  { rewrite (proj1 HC). cbv zeta. destruct (vc =? 0).
    - rewrite ET in EA, BA.
      destruct (dyn_value _ _ _ _ _ _ _ _ _ _ _ _ _ DY5 TB BA EA (rd _ _ _ _ _ _ _ _ EV2) PLb1)
        as (s3 & EV3 & ST3 & RG3 & VR3).
      destruct (to_address_runs eb n5 xb db n6 (etype b) n4 Ra s3 m3 va oa E6 DT5 ST3 (rd _ _ _ _ _ _ _ _ EV3) ltac:(lia) ltac:(lia) BA RG3 PLb2 VR3)
        as (s4 & EV4 & SZ & WR & ID & GT & SE).
      exists s4. split; [|rewrite ET; split; [exact WR|split; [exact GT|]]].
      + refine (frame_weaken _ _ _ _ _ _ _ _ _ _ (seq0 _ _ _ _ _ _ _ _ _ _ _ _ EV3 _ _ EV4) _ _); lia.
      + eapply settled_more; [exact SE| | |]; auto; lia.
    - destruct (dyn_value _ _ _ _ _ _ _ _ _ _ _ _ _ DY3 TA BA EA (rd _ _ _ _ _ _ _ _ EV2) PLa1)
        as (s3 & EV3 & ST3 & RG3 & VR3).
      destruct (to_address_runs ea n3 xa da n4 (etype a) n2 Ra s3 m3 va oa E4 DT3 ST3 (rd _ _ _ _ _ _ _ _ EV3) ltac:(lia) ltac:(lia) BA RG3 PLa2 VR3)
        as (s4 & EV4 & SZ & WR & ID & GT & SE).
      exists s4. split; [|split; [exact WR|split; [exact GT|]]].
      + refine (frame_weaken _ _ _ _ _ _ _ _ _ _ (seq0 _ _ _ _ _ _ _ _ _ _ _ _ EV3 _ _ EV4) _ _); lia.
      + eapply settled_more; [exact SE| | |]; auto; lia. }
  destruct AR as (s3 & EV3 & WR & GT & SE). cbv zeta in WR, GT, SE.
  pose proof (phi_runs n2 n6 Wa cv (ca ++ da) xa (cb ++ db) xb s2 m1 s3 m3 EV3 ltac:(lia) ltac:(lia)) as EV4. fold d in EV4.
  set (x := if word s2 cv =? 0 then xb else xa) in *.
  exists (set_node s3 d (word s3 x)). split.
  { refine (seq _ _ _ _ _ _ _ _ _ _ _ _ _ EV1 _ _ _); [lia|lia|].
    refine (seqr _ _ _ _ _ _ _ _ _ _ _ _ EV2 _ _ _); [lia|lia|]. exact EV4. }
  assert (WD : word (set_node s3 d (word s3 x)) d = word s3 x) by (rewrite word_set; apply Z.mod_small; cbn [size d]; rewrite p64; exact WR).
  right. cbn [kind_of pointer PtrSpec.etype]. rewrite WD.
  split; [exact GT|]. split; [reflexivity|]. split; [exact WR|]. split; [cbn; lia|].
  eapply settled_more; [exact SE| | |]; [lia|lia|]. intros z Z. apply in_or_app. tauto.
Qed.

(** All together. *)
Theorem all_correct e : forall u, typed e -> covered u e -> correct u e.
Proof.
  induction e; intros u T C.
  - apply c_const, T.
  - apply c_object.
  - destruct T as [T (t & ET)]. destruct C as [C Y]. eapply c_ind; [exact T|exact ET|exact Y|auto].
  - destruct T as (T & D & BF). eapply c_address; [left; reflexivity|reflexivity|..]; auto.
  - destruct T as (T & D & BF & (k & t & ET)). eapply c_address; [right; reflexivity|cbn [PtrSpec.etype]; rewrite ET; reflexivity|..]; auto.
  - apply c_dot; [exact T|]. destruct T as [T _]. auto.
  - apply c_ptr; [exact T|..]; destruct T as (T1 & T2 & _); destruct C; auto.
  - apply c_diff; [exact T|..]; destruct T as (T1 & T2 & _); destruct C; auto.
  - destruct (void_dec t) as [-> | NV].
    + apply c_cast_void. destruct T. auto.
    + apply c_cast; [exact T|exact NV|]. destruct T as [T _]. apply IHe; [exact T|]. destruct t; first [exact C | congruence].
  - destruct C as (C1 & C2 & C3). apply c_bin; [exact T|exact C3|..]; destruct T as (T1 & T2 & _); auto.
  - apply c_un; [exact T|]. destruct T as [T _]. auto.
  - destruct C as (C1 & C2 & C3). apply c_assign; [exact T|exact C3|..]; destruct T as (T1 & T2 & _); auto.
  - destruct C as (C1 & C2 & C3). apply c_assign_op; [exact T|exact C3|..]; destruct T as (T1 & T2 & _); auto.
  - destruct C as (C1 & C2). apply c_assign_ptr; [exact T|..]; destruct T as (T1 & T2 & _); auto.
  - destruct C as [C1 C2]. destruct (void_dec (etype e2)) as [VO | NV].
    + rewrite VO in C2. destruct C2. apply c_cond_void; [exact T|exact VO|..]; destruct T as (T1 & T2 & T3 & _); auto.
    + assert (C3 : covered Value e2 /\ covered Value e3) by (destruct (etype e2); first [exact C2 | congruence]).
      destruct C3. apply c_cond; [exact T|exact NV|..]; destruct T as (T1 & T2 & T3 & _); auto.
  - destruct C as [C1 C2]. apply c_comma; [exact T|..]; destruct T as (T1 & T2 & _); auto.
Qed.
End Parts.
