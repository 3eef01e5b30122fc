(** C36: stack frame layout. *)
From Verif Require Import Base Bytes Common X86 Codegen Frame FrameSpec FrameProofs X86Proofs X86Preserve.

(** Frames are handed out for every list of requests that fits. *)
Theorem C36_allocated l preamble :
  Forall request_ok l -> 0 <= preamble -> demand l preamble <= 2 ^ 31 ->
  exists fr, allocate_frame l preamble = Ok fr.
Proof. apply allocate_total. Qed.
Print Assumptions C36_allocated.

(** Every value, object and save area gets its bytes... *)
Theorem C36_complete l preamble fr :
  Forall request_ok l -> 0 <= preamble -> allocate_frame l preamble = Ok fr ->
  (forall i r, nth_error l i = Some r -> f_size r <> 0 -> exists loc, region l preamble fr (Slot i) loc (f_size r)) /\
  (forall i r n a, nth_error l i = Some r -> f_alloc r = Some (n, a) -> exists loc, region l preamble fr (Object i) loc n) /\
  (preamble <> 0 -> exists loc, region l preamble fr SaveArea loc preamble).
Proof.
  intros R P E. destruct (frame_chain _ _ _ R P E) as (_ & _ & _ & T0 & T2 & T3 & _ & _).
  split; [|split].
  - intros i r N S. destruct (T0 i r N S) as (loc & L). exists loc, r. auto.
  - intros i r n a N A. destruct (T2 i r n a N A) as (loc & L & _). exists loc, r, a. auto.
  - intros NZ. destruct (T3 NZ) as (loc & L). exists loc. cbn. auto.
Qed.
Print Assumptions C36_complete.

(** ...no two share a byte... *)
Theorem C36_disjoint l preamble fr o1 loc1 n1 o2 loc2 n2 :
  Forall request_ok l -> 0 <= preamble -> allocate_frame l preamble = Ok fr ->
  region l preamble fr o1 loc1 n1 -> region l preamble fr o2 loc2 n2 -> o1 <> o2 ->
  disjoint loc1 n1 loc2 n2.
Proof.
  intros R P E R1 R2 N. destruct (frame_chain _ _ _ R P E) as (C & _).
  eapply chain_two; [exact C|apply region_entry; exact R1|apply region_entry; exact R2|exact N].
Qed.
Print Assumptions C36_disjoint.

(** ...and all lie between the frame pointer and the stack pointer that the
    prologue leaves. *)
Theorem C36_inside l preamble fr o loc n :
  Forall request_ok l -> 0 <= preamble -> allocate_frame l preamble = Ok fr ->
  region l preamble fr o loc n -> n <= loc <= fr_sub fr.
Proof.
  intros R P E R1. destruct (frame_chain _ _ _ R P E) as (C & _).
  apply region_entry in R1. pose proof (chain_in _ _ _ _ _ _ C R1). lia.
Qed.
Print Assumptions C36_inside.

(** The prologue: whatever called the function, the stack pointer becomes a
    multiple of 16 right below the frame, the frame lies below the return
    address, objects are aligned as requested, and no argument register and no
    byte of the caller's frame changes. *)
Theorem C36_prologue F l preamble fr s :
  Forall request_ok l -> 0 <= preamble -> allocate_frame l preamble = Ok fr -> just_called s fr ->
  exists s', exec_all F (prologue fr) s = Ok s' /\
    gpr s' RSP = gpr s' RBP - fr_sub fr /\ gpr s' RSP mod 16 = 0 /\
    0 <= gpr s' RSP /\ gpr s' RBP + 8 <= gpr s RSP /\
    (forall i r n a loc, nth_error l i = Some r -> f_alloc r = Some (n, a) -> a <> 0 ->
       region l preamble fr (Object i) loc n -> (gpr s' RBP - loc) mod a = 0) /\
    (forall r, r <> RBP -> r <> RSP -> gpr s' r = gpr s r) /\
    (forall x, xmm s' x = xmm s x) /\
    (forall x, gpr s RSP <= x -> mem s' x = mem s x).
Proof.
  intros R P E (M & A16 & ROOM).
  destruct (frame_chain _ _ _ R P E) as (C & D16 & _ & _ & T2 & _ & AL & SV).
  destruct (frame_suits _ _ _ R P E) as (SUB & AL0 & SAVE).
  destruct (prologue_enters F s fr M ROOM SUB AL0) as (s' & X & EN).
  { intros off O. destruct (SAVE off O) as (B & _ & K). auto. }
  destruct EN. exists s'. split; [exact X|]. split; [exact en_rsp|].
  assert (BP : (16 | gpr s' RBP) /\ gpr s' RBP + 8 <= gpr s RSP /\
               (forall a, a <= fr_align fr -> (exists k, 0 <= k /\ a = 2 ^ k) -> (a | gpr s' RBP))).
  { assert (D8 : (16 | gpr s RSP - 8)).
    { apply Z.mod_divide; [lia|]. rewrite Zminus_mod, A16. reflexivity. }
    destruct (fr_save fr) as [off|] eqn:FS.
    - destruct (SAVE off eq_refl) as (_ & BIG & k & K & AK). rewrite en_rbp, AK in *.
      assert (PK : 0 < 2 ^ k) by (apply Z.pow_pos_nonneg; lia).
      pose proof (Z.mod_pos_bound (gpr s RSP - 8) (2 ^ k) PK) as MB.
      assert (DK : (2 ^ k | gpr s RSP - 8 - (gpr s RSP - 8) mod 2 ^ k)).
      { exists ((gpr s RSP - 8) / 2 ^ k). pose proof (Z.div_mod (gpr s RSP - 8) (2 ^ k) ltac:(lia)). lia. }
      assert (K4 : 4 < k). { apply (Z.pow_lt_mono_r_iff 2); lia. }
      assert (DIV : forall j, 0 <= j <= k -> (2 ^ j | 2 ^ k)).
      { intros j J. exists (2 ^ (k - j)). rewrite <- Z.pow_add_r by lia. f_equal. lia. }
      split; [|split].
      + eapply Z.divide_trans; [|exact DK]. change 16 with (2 ^ 4). apply DIV. lia.
      + lia.
      + intros a LE (j & J & ->). eapply Z.divide_trans; [|exact DK]. apply DIV. split; [lia|].
        apply (Z.pow_le_mono_r_iff 2); lia.
    - rewrite en_rbp. split; [exact D8|]. split; [lia|].
      assert (fr_align fr <= 16) by (apply SV; reflexivity).
      intros a LE (j & J & ->). eapply Z.divide_trans; [|exact D8].
      assert (j <= 4). { apply (Z.pow_le_mono_r_iff 2); [lia|lia|]. change (2 ^ 4) with 16. lia. }
      exists (2 ^ (4 - j)). change 16 with (2 ^ 4). rewrite <- Z.pow_add_r by lia. f_equal. lia. }
  destruct BP as (B16 & BL & BA).
  split. { rewrite en_rsp. apply Z.mod_divide; [lia|]. apply Z.divide_sub_r; assumption. }
  split. { apply (proj1 en_ok). }
  split; [exact BL|]. split; [|split; [exact en_gpr|split; [exact en_xmm|exact en_mem]]].
  intros i r n a loc N A NZ (r' & a' & N' & A' & L').
  rewrite N in N'. inversion N'; subst r'. rewrite A in A'. inversion A'; subst a'.
  destruct (T2 i r n a N A) as (loc' & L & D). rewrite L in L'. inversion L'; subst loc'.
  destruct (D NZ) as (DL & LE).
  apply Z.mod_divide; [exact NZ|]. apply Z.divide_sub_r; [|exact DL]. apply BA; [exact LE|].
  rewrite Forall_forall in R. specialize (R r (nth_error_In _ _ N)). destruct R as [_ R]. rewrite A in R.
  destruct R as [_ [R|(k & K & R)]]; [contradiction|]. exists k. split; [lia|exact R].
Qed.
Print Assumptions C36_prologue.

(** The return sequence, after any code that kept the frame pointer and did
    not write over the caller's frame pointer where the prologue saved it,
    gives the caller its frame and stack pointers back. *)
Theorem C36_return F l preamble fr s s' s2 :
  Forall request_ok l -> 0 <= preamble -> allocate_frame l preamble = Ok fr -> just_called s fr ->
  exec_all F (prologue fr) s = Ok s' ->
  machine_ok s2 -> gpr s2 RBP = gpr s' RBP ->
  (forall x, gpr s RSP - 8 <= x < gpr s RSP -> mem s2 x = mem s' x) ->
  (forall loc n x, region l preamble fr SavedFrame loc n ->
     gpr s' RBP - loc <= x < gpr s' RBP - loc + n -> mem s2 x = mem s' x) ->
  exists s3, exec_all F (epilogue fr) s2 = Ok s3 /\
    gpr s3 RBP = gpr s RBP /\ gpr s3 RSP = gpr s RSP /\ (forall x, mem s3 x = mem s2 x) /\
    (forall r, r <> RBP -> r <> RSP -> gpr s3 r = gpr s2 r) /\ (forall x, xmm s3 x = xmm s2 x).
Proof.
  intros R P E (M & A16 & ROOM) X M2 BP OLD SAVED.
  destruct (frame_suits _ _ _ R P E) as (SUB & AL0 & SAVE).
  assert (SV : forall off, fr_save fr = Some off -> 8 <= off <= fr_sub fr /\ exists k, 0 <= k <= 30 /\ fr_align fr = 2 ^ k).
  { intros off O. destruct (SAVE off O) as (B & _ & K). auto. }
  destruct (prologue_enters F s fr M ROOM SUB AL0 SV) as (s1 & X1 & EN).
  rewrite X in X1. inversion X1; subst s1.
  apply (epilogue_leaves F fr s s' s2); auto.
  intros off x O B. apply (SAVED off 8); [|exact B]. cbn. auto.
Qed.
Print Assumptions C36_return.

(** A function with two values, a variable length array, an object aligned to
    32 bytes, an unaligned object and a register save area. *)
Definition example_requests : list frame_ins :=
  [ {| f_size := 4; f_vla := false; f_alloc := None |};
    {| f_size := 8; f_vla := true; f_alloc := None |};
    {| f_size := 8; f_vla := false; f_alloc := Some (40, 32) |};
    {| f_size := 0; f_vla := false; f_alloc := None |};
    {| f_size := 8; f_vla := false; f_alloc := Some (3, 0) |} ].
Example example_requests_ok : Forall request_ok example_requests.
Proof.
  assert (forall n v, 0 <= n -> request_ok {| f_size := n; f_vla := v; f_alloc := None |}) by (unfold request_ok; cbn; auto).
  unfold example_requests. constructor; [apply H; lia|]. constructor; [apply H; lia|]. constructor.
  - unfold request_ok; cbn [f_size f_alloc]. split; [lia|]. split; [lia|]. right. exists 5. split; [lia|reflexivity].
  - constructor; [apply H; lia|]. constructor; [|constructor].
    unfold request_ok; cbn [f_size f_alloc]. split; [lia|]. split; [lia|]. left. reflexivity.
Qed.
Example example_frame :
  allocate_frame example_requests 48 =
  Ok {| fr_slots := [Some 4; Some 12; Some 20; None; Some 28]; fr_vlas := 1; fr_vla_offset := 36;
        fr_objects := [None; None; Some 96; None; Some 99]; fr_align := 32; fr_preamble := Some 147;
        fr_save := Some 155; fr_sub := 160 |}.
Proof. vm_compute. reflexivity. Qed.
Definition example_entry : machine :=
  {| gpr := fun r => match r with RSP => 70008 | RBP => 80000 | RDI => 5 | _ => 0 end;
     xmm := fun _ => 0; flag := None; mem := fun _ => 0 |}.
Example example_called fr : allocate_frame example_requests 48 = Ok fr -> just_called example_entry fr.
Proof.
  rewrite example_frame. intros E. inversion E; subst fr. unfold just_called, machine_ok. cbn [fr_sub fr_align gpr xmm mem example_entry].
  split; [|split; [reflexivity|lia]]. split; [intros []; lia|]. split; intros; lia.
Qed.
Definition example_fpu : fpu :=
  {| fpu_arith32 := fun _ _ _ => 0; fpu_arith64 := fun _ _ _ => 0; fpu_int_to_32 := fun _ => 0;
     fpu_int_to_64 := fun _ => 0; fpu_32_to_int := fun _ => 0; fpu_64_to_int := fun _ => 0;
     fpu_32_to_64 := fun _ => 0; fpu_64_to_32 := fun _ => 0 |}.
Example example_prologue :
  match allocate_frame example_requests 48 with
  | Ok fr => match exec_all example_fpu (prologue fr ++ epilogue fr) example_entry with
             | Ok s => gpr s RSP = 70008 /\ gpr s RBP = 80000 /\ gpr s RDI = 5
             | _ => False
             end
  | _ => False
  end.
Proof. vm_compute. split; [|split]; reflexivity. Qed.
