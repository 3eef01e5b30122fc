(** C29: phi elimination. *)
From Verif Require Import Base Bytes X86 Codegen AsmSpec Phi PhiSpec X86Proofs X86Preserve CodegenProofs AsmIntProofs
  AsmOpProofs AsmCastProofs C34Props.

Lemma apart_bits s s' a b : apart a b -> 0 <= s_size b -> gpr s' RBP = gpr s RBP ->
  only_changes s s' (slot_address s a) (s_size a) -> slot_bits s' b = slot_bits s b.
Proof.
  intros AP SB B O. unfold slot_bits. assert (E : slot_address s' b = slot_address s b) by (unfold slot_address; congruence).
  rewrite E. apply load_ext. intros x X. apply O. rewrite Z2Nat.id in X by lia. unfold apart, slot_address in *. lia.
Qed.

(** One copy. *)
Lemma copy_ok F s src dst :
  machine_ok s -> in_memory s src -> in_memory s dst -> In (s_size dst) [1; 2; 4; 8] -> s_size src = s_size dst ->
  exists la s', scalar_to_reg src RAX = Ok la /\ exec_all F (la ++ reg_to_scalar RAX dst) s = Ok s' /\ machine_ok s' /\
    slot_bits s' dst = slot_bits s src /\ only_changes s s' (slot_address s dst) (s_size dst) /\ keeps_frame s s'.
Proof.
  intros OK IA IO SO SS.
  assert (S8 : 0 <= s_size dst <= 8) by (destruct SO as [<-|[<-|[<-|[<-|[]]]]]; lia).
  destruct (unary_ok F src dst s (slot_bits s src) []) as (la & s' & E & X & V & O & K); auto.
  - rewrite SS. exact SO.
  - assert (R := slot_range s src OK ltac:(lia)).
    assert (R64 : 0 <= slot_bits s src < 2 ^ 64).
    { assert (2 ^ (8 * s_size src) <= 2 ^ 64) by (apply Z.pow_le_mono_r; lia). lia. }
    exists (set_gpr s RAX (slot_bits s src)). split; [reflexivity|]. split.
    { rewrite gpr_same. rewrite <- SS. apply Z.mod_small. exact R. }
    split; [reflexivity|]. split; [reflexivity|]. split; [reflexivity|].
    apply machine_gpr; assumption.
  - exists la, s'. cbn [app] in X. split; [exact E|]. split; [exact X|].
    split; [eapply exec_all_preserves; eauto|]. auto.
Qed.

Lemma frame_phi s s' current preds p : keeps_frame s s' -> phi_ok s current preds p -> phi_ok s' current preds p.
Proof.
  intros [B _] (I & S & O).
  assert (A : forall sc, slot_address s' sc = slot_address s sc) by (intros; unfold slot_address; congruence).
  split; [unfold in_memory in *; rewrite A; exact I|]. split; [exact S|].
  intros src E. destruct (O src E) as [J K]. split; [unfold in_memory in *; rewrite A; exact J|exact K].
Qed.

(** With no interference between the copies, the code emitted on an edge
    gives each phi of the target the value its operand had at the end of the
    block, and changes no other memory. *)
Theorem C29_phi_copies_partial F s region current preds uses :
  machine_ok s -> (current = fst preds \/ current = snd preds) ->
  (forall p, In (Some p) uses -> phi_ok s current preds p) ->
  region = true -> no_interference current preds uses ->
  exists code s', codegen_phi_node region current preds uses = Ok code /\ exec_all F code s = Ok s' /\
    takes_operands current preds uses s s' /\ only_phis uses s s' /\ keeps_frame s s'.
Proof.
  intros OK C P -> NI. cbn [codegen_phi_node].
  revert s OK P. induction uses as [|[p|] uses IH]; intros s OK P.
  - exists [], s. split; [reflexivity|]. split; [reflexivity|]. split; [intros p src []|].
    split; [intros x _; reflexivity|split; reflexivity].
  - cbn [no_interference] in NI. destruct NI as (N1 & N2 & NI).
    assert (PP := P p (or_introl eq_refl)). destruct PP as (IP & SP & SRC).
    assert (S8 : 0 < s_size (p_slot p) <= 8) by (destruct SP as [<-|[<-|[<-|[<-|[]]]]]; lia).
    assert (CP : exists l s1, phi_copy current preds p = Ok l /\ exec_all F l s = Ok s1 /\ machine_ok s1 /\
        (forall src, operand_of current preds p = Some src -> slot_bits s1 (p_slot p) = slot_bits s src) /\
        (operand_of current preds p = None -> s1 = s) /\
        only_changes s s1 (slot_address s (p_slot p)) (s_size (p_slot p)) /\ keeps_frame s s1).
    { unfold phi_copy. destruct (Z.eqb_spec (s_size (p_slot p)) 0); [lia|].
      assert (SEL : (if current =? fst preds then Ok (fst (p_args p))
                     else if current =? snd preds then Ok (snd (p_args p)) else Fail) = Ok (operand_of current preds p)).
      { unfold operand_of. destruct (Z.eq_dec current (fst preds)) as [->|NE]; [rewrite Z.eqb_refl; reflexivity|].
        destruct (Z.eqb_spec current (fst preds)); [contradiction|]. destruct C as [C|C]; [contradiction|].
        rewrite C, Z.eqb_refl. reflexivity. }
      rewrite SEL. cbn [bind]. destruct (operand_of current preds p) as [src|] eqn:OP.
      - destruct (SRC src eq_refl) as [IS SS].
        destruct (copy_ok F s src (p_slot p) OK IS IP SP SS) as (la & s1 & E & X & M & V & O & K).
        rewrite E. cbn [bind]. do 2 eexists. split; [reflexivity|]. split; [exact X|]. split; [exact M|].
        split; [intros ? Q; inversion Q; subst; exact V|]. split; [discriminate|]. split; assumption.
      - exists [], s. split; [reflexivity|]. split; [reflexivity|]. split; [exact OK|]. split; [discriminate|].
        split; [reflexivity|]. split; [intros x _; reflexivity|split; reflexivity]. }
    destruct CP as (l & s1 & E1 & X1 & M1 & V1 & NONE & O1 & K1).
    assert (A1 : forall sc, slot_address s1 sc = slot_address s sc) by (intros; unfold slot_address; destruct K1; congruence).
    destruct (IH NI s1 M1) as (code & s' & E2 & X2 & T2 & O2 & K2).
    { intros q Q. apply (frame_phi s s1 current preds q K1). apply P. right. exact Q. }
    cbn [phi_copies]. rewrite E1. cbn [bind]. rewrite E2. cbn [bind].
    exists (l ++ code), s'. split; [reflexivity|]. split; [rewrite exec_all_app, X1; exact X2|].
    split; [|split].
    + intros q src [Q|Q] OQ.
      * inversion Q; subst q.
        transitivity (slot_bits s1 (p_slot p)); [|apply V1; exact OQ].
        unfold slot_bits. replace (slot_address s' (p_slot p)) with (slot_address s1 (p_slot p))
          by (unfold slot_address; destruct K2; congruence).
        apply load_ext. intros x X. apply O2. intros r R. rewrite Z2Nat.id in X by lia.
        specialize (N1 r R). unfold apart in N1. unfold slot_address in *. lia.
      * rewrite (T2 q src Q OQ).
        destruct (operand_of current preds p) as [sp|] eqn:OP; [|rewrite (NONE eq_refl); reflexivity].
        assert (AP := N2 ltac:(discriminate) q src Q OQ).
        apply (apart_bits s s1 (p_slot p)); auto; [|apply K1].
        destruct (P q (or_intror Q)) as (_ & SQ & SS). destruct (SS src OQ) as [_ ->].
        destruct SQ as [<-|[<-|[<-|[<-|[]]]]]; lia.
    + intros x X. rewrite O2.
      * apply O1. apply (X p). left. reflexivity.
      * intros q Q. rewrite A1. apply X. right. exact Q.
    + destruct K1, K2. split; congruence.
  - cbn [phi_copies no_interference] in *.
    destruct (IH NI s OK) as (code & s' & E2 & X2 & T2 & O2 & K2); [intros q Q; apply P; right; exact Q|].
    exists code, s'. split; [exact E2|]. split; [exact X2|]. split; [|split; [|exact K2]].
    + intros q src [Q|Q] OQ; [discriminate|]. apply T2; assumption.
    + intros x X. apply O2. intros q Q. apply X. right. exact Q.
Qed.
Print Assumptions C29_phi_copies_partial.

(** The copies are made one after the other, so two phis that exchange their
    values both end with the value of the second. *)
Theorem C29_exchange_refuted F s current other a b x y :
  machine_ok s -> in_memory s a -> in_memory s b -> In (s_size a) [1; 2; 4; 8] -> s_size b = s_size a -> apart a b ->
  let uses := [Some {| p_slot := a; p_args := (Some b, x) |}; Some {| p_slot := b; p_args := (Some a, y) |}] in
  exists code s', codegen_phi_node true current (current, other) uses = Ok code /\ exec_all F code s = Ok s' /\
    slot_bits s' a = slot_bits s b /\ slot_bits s' b = slot_bits s b /\
    (slot_bits s a <> slot_bits s b -> ~ takes_operands current (current, other) uses s s').
Proof.
  intros OK IA IB SA SB AP uses.
  assert (S8 : 0 < s_size a <= 8) by (destruct SA as [<-|[<-|[<-|[<-|[]]]]]; lia).
  destruct (copy_ok F s b a OK IB IA SA SB) as (l1 & s1 & E1 & X1 & M1 & V1 & O1 & K1).
  assert (A1 : forall sc, slot_address s1 sc = slot_address s sc) by (intros; unfold slot_address; destruct K1; congruence).
  destruct (copy_ok F s1 a b M1) as (l2 & s2 & E2 & X2 & M2 & V2 & O2 & K2);
    try (unfold in_memory in *; rewrite A1; assumption); try congruence.
  exists ((l1 ++ reg_to_scalar RAX a) ++ (l2 ++ reg_to_scalar RAX b) ++ []), s2.
  unfold uses, codegen_phi_node, phi_copies, phi_copy. cbn [p_slot p_args fst snd].
  rewrite SB. destruct (Z.eqb_spec (s_size a) 0); [lia|]. rewrite Z.eqb_refl. cbn [bind].
  rewrite E1, E2. cbn [bind]. split; [reflexivity|].
  rewrite exec_all_app, X1. cbn [bind]. rewrite exec_all_app, X2. cbn [bind exec_all]. split; [reflexivity|].
  assert (VA : slot_bits s2 a = slot_bits s b).
  { rewrite <- V1. apply (apart_bits s1 s2 b a); [unfold apart in *; tauto|lia|apply K2|exact O2]. }
  split; [exact VA|]. split; [congruence|].
  intros NE T. specialize (T {| p_slot := b; p_args := (Some a, y) |} a (or_intror (or_introl eq_refl))).
  unfold operand_of in T. cbn [p_slot p_args fst snd] in T.
  destruct (Z.eq_dec current current); [|contradiction]. specialize (T eq_refl). congruence.
Qed.
Print Assumptions C29_exchange_refuted.

(** When both edges into a region come from one block, the first operand is
    taken on both: the second never is. *)
Theorem C29_same_predecessor_refuted current uses :
  codegen_phi_node true current (current, current) uses =
  codegen_phi_node true current (current, current)
    (map (option_map (fun p => {| p_slot := p_slot p; p_args := (fst (p_args p), None) |})) uses).
Proof.
  cbn [codegen_phi_node]. induction uses as [|[p|] uses IH]; [reflexivity| |exact IH].
  cbn [map option_map phi_copies]. rewrite <- IH. unfold phi_copy. cbn [p_slot p_args fst snd]. rewrite Z.eqb_refl. reflexivity.
Qed.
Print Assumptions C29_same_predecessor_refuted.

(** A loop that counts in one phi and keeps the previous count in another:
    the second phi reads the first, so copying it first does no harm. *)
Definition count := {| s_size := 4; s_loc := 4 |}.
Definition previous := {| s_size := 4; s_loc := 8 |}.
Definition incremented := {| s_size := 4; s_loc := 12 |}.
Definition initial := {| s_size := 4; s_loc := 16 |}.
Definition loop_uses : list (option phi) :=
  [None; Some {| p_slot := previous; p_args := (None, Some count) |};
   Some {| p_slot := count; p_args := (Some initial, Some incremented) |}].
Definition loop_state : machine :=
  {| gpr := fun r => match r with RBP => 4096 | RSP => 4064 | _ => 0 end; xmm := fun _ => 0; flag := None;
     mem := fun x => if x =? 4092 then 7 else if x =? 4084 then 8 else 0 |}.
Example C29_example :
  machine_ok loop_state /\ (forall p, In (Some p) loop_uses -> phi_ok loop_state 2 (1, 2) p) /\
  no_interference 2 (1, 2) loop_uses /\ slot_bits loop_state count = 7 /\ slot_bits loop_state incremented = 8 /\
  match codegen_phi_node true 2 (1, 2) loop_uses with
  | Ok code => match exec_all no_fpu code loop_state with
               | Ok s' => slot_bits s' count = 8 /\ slot_bits s' previous = 7
               | _ => False end
  | _ => False end.
Proof.
  split; [|split; [|split]].
  - unfold machine_ok, loop_state; cbn [gpr xmm mem]. split; [intros []; lia|]. split; [lia|].
    intros a. destruct (a =? 4092); [lia|]. destruct (a =? 4084); lia.
  - intros p [H|[H|[H|[]]]]; inversion H; subst p; unfold phi_ok, in_memory, slot_address, operand_of;
      cbn [p_slot p_args fst snd s_size s_loc gpr loop_state previous count];
      (split; [lia|]); (split; [cbn [In]; tauto|]);
      destruct (Z.eq_dec 2 1); try lia; intros src E; inversion E; subst src; cbn [s_size s_loc count incremented]; lia.
  - unfold loop_uses, no_interference, apart, operand_of. cbn [In]. split; [|split; [|split; [|split; [|exact I]]]].
    + intros q [H|[]]. inversion H; subst q. cbn. lia.
    + intros _ q src [H|[]]. inversion H; subst q. cbn [fst snd p_args p_slot]. destruct (Z.eq_dec 2 1); [lia|].
      intros E; inversion E; subst src. cbn. lia.
    + intros q [].
    + intros _ q src [].
  - split; [vm_compute; reflexivity|]. split; [vm_compute; reflexivity|]. vm_compute. split; reflexivity.
Qed.
