(** C44: alignment requests. *)
From Coq Require Import String.
From Verif Require Import Base CharTypes MacroTable Bytes Object ObjectSpec ObjectProofs.
Local Open Scope Z_scope.
Local Open Scope list_scope.

(** After an alignment request the next byte of the section goes to a
    multiple of the alignment; only zero bytes, and fewer than the alignment,
    are added. *)
Theorem C44_offset : forall history a, Forall request_ok history -> 0 < a ->
  exists b b' s s' n, serve_all history object_start = Ok b /\ object_align a b = Ok b' /\
    current b = Ok s /\ current b' = Ok s' /\
    sec_data s' = sec_data s ++ repeat 0 n /\ Z.of_nat n < a /\ (a | Z.of_nat (length (sec_data s'))).
Proof.
  intros h a R P. destruct (shows_serve_all h _ _ R shows_start) as (b & E & S).
  destruct (shows_align a b _ P S) as (b' & A & S'). set (v := meaning_all h view_start) in *.
  destruct (current_ok _ _ S) as (s & C & _ & _ & D & _). destruct (current_ok _ _ S') as (s' & C' & _ & _ & D' & _).
  exists b, b', s, s', (Z.to_nat (padding (position v) a)). repeat (split; [assumption|]).
  cbn [meaning] in D'. rewrite append_here in D'. cbn [append bytes_of] in D'. rewrite upd_same in D'.
  unfold padding in *. pose proof (Z.mod_pos_bound (- position v) a P) as B.
  split; [rewrite D', D; reflexivity|]. split; [lia|].
  rewrite D', app_length, repeat_length, Nat2Z.inj_add, Z2Nat.id by lia. fold (position v).
  apply Z.mod_divide; [lia|]. rewrite Z.add_mod_idemp_r by lia. rewrite Z.add_opp_diag_r. apply Z.mod_0_l. lia.
Qed.
Print Assumptions C44_offset.

(** When padding was needed the alignment is recorded. *)
Theorem C44_recorded_partial : forall history a b b' s s', Forall request_ok history -> 0 < a ->
  serve_all history object_start = Ok b -> object_align a b = Ok b' -> current b = Ok s -> current b' = Ok s' ->
  ~ (a | Z.of_nat (length (sec_data s))) -> a <= sec_alignment s' /\ sec_alignment s <= sec_alignment s'.
Proof.
  intros h a b b' s s' R P E A C C' ND. destruct (shows_serve_all h _ _ R shows_start) as (b0 & E0 & S).
  rewrite E in E0. inversion E0; subst b0. unfold object_align in A. rewrite C in A. cbn [bind] in A.
  destruct (Z.eqb_spec a 0) as [|_]; [lia|].
  destruct (Z.eqb_spec (Z.of_nat (length (sec_data s)) mod a) 0) as [Z0|_].
  - exfalso. apply ND. apply Z.mod_divide; lia.
  - unfold object_write_zero, object_write in A. rewrite C in A. cbn [bind] in A.
    unfold current in A, C, C'. destruct (nth_error (sections (obj b)) (current_section b)) as [q|] eqn:N; [|discriminate].
    inversion C; subst q. assert (L : (current_section b < length (sections (obj b)))%nat) by (apply nth_error_Some; congruence).
    cbn [set_current obj sections current_section] in A. rewrite nth_error_set_nth_eq in A by auto. cbn [bind] in A.
    inversion A; subst b'. clear A. cbn [set_current obj sections current_section] in C'.
    rewrite nth_error_set_nth_eq in C' by (rewrite set_nth_length; auto). inversion C'; subst s'. cbn [sec_alignment with_data]. lia.
Qed.
Print Assumptions C44_recorded_partial.

(** When no padding is needed the request is forgotten: the recorded
    alignment stays what it was, however small. *)
Theorem C44_recorded_refuted : forall a b s, 0 < a -> current b = Ok s -> (a | Z.of_nat (length (sec_data s))) ->
  object_align a b = Ok b.
Proof.
  intros a b s P C D. unfold object_align. rewrite C. cbn [bind].
  destruct (Z.eqb_spec a 0) as [|_]; [lia|]. apply Z.mod_divide in D; [|lia]. rewrite D. reflexivity.
Qed.
Print Assumptions C44_recorded_refuted.

(** A static object that asks for 16-byte alignment at the start of its
    section: the section ends up with alignment 0. *)
Example C44_example :
  match serve_all [Section_ (chars ".data"); Align 16; Define (chars "x") true; WriteZero 16] object_start with
  | Ok b => map sec_alignment (sections (object_finish b)) = [0; 0]
  | _ => False
  end.
Proof. vm_compute. reflexivity. Qed.
Example C44_example_padded :
  match serve_all [Section_ (chars ".data"); WriteByte 1; Align 16; Define (chars "x") true; WriteZero 16] object_start with
  | Ok b => map sec_alignment (sections (object_finish b)) = [0; 16]
  | _ => False
  end.
Proof. vm_compute. reflexivity. Qed.
