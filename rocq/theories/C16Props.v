(** C16: the macro table. *)
From Verif Require Import Base Common MacroTable MacroTableSpec MacroTableProofs.

(** After any history of #define and #undef, looking up any name finds exactly
    the definition in force: the latest #define of that name that no #undef
    follows (with outer white space dropped), or nothing. *)
Theorem C16_macro_table :
  forall history, no_pragmas history ->
  exists st, macro_run minit history = Ok st /\
  forall name, exists r, define_map_get (tab st) name = Ok r /\ matches (in_force name history None) r.
Proof.
  intros l HN. destruct (run_in_force l HN minit (fun _ => None) init_tab found_init) as (st & E & HI & HF).
  exists st. split; auto. intros n. exists (found (tab st) n). split; [apply get_found; auto|].
  rewrite HF. destruct (in_force n l None) as [d|]; cbn; auto. apply clean_stored.
Qed.
Print Assumptions C16_macro_table.

Definition C16_def (n : list Z) (v : Z) : define :=
  {| d_name := n; d_func := false; d_vararg := false; d_par := [];
     d_def := [{| k_type := v; k_str := [v]; k_ws := true; k_ws_after := true |}] |}.
(** The two names collide in the table. *)
Example C16_collision : bucket_of [97; 98] = bucket_of [98; 65] /\ [97; 98] <> [98; 65].
Proof. split; [vm_compute; reflexivity|discriminate]. Qed.
Definition C16_history : list macro_op :=
  [OpDefine (C16_def [97; 98] 1); OpDefine (C16_def [98; 65] 2); OpDefine (C16_def [97; 98] 3); OpUndef [98; 65]; OpDefine (C16_def [99] 4)].
Example C16_nontrivial : no_pragmas C16_history /\
  in_force [97; 98] C16_history None = Some (C16_def [97; 98] 3) /\ in_force [98; 65] C16_history None = None /\
  exists st, macro_run minit C16_history = Ok st /\
    define_map_get (tab st) [97; 98] = Ok (Some (clean (C16_def [97; 98] 3))) /\ define_map_get (tab st) [98; 65] = Ok None.
Proof.
  repeat split.
  - repeat (apply Forall_cons; [exact I|]); apply Forall_nil.
  - eexists. split; [vm_compute; reflexivity|]. split; vm_compute; reflexivity.
Qed.
