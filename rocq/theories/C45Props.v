(** C45: link-time relocation. *)
From Coq Require Import String.
From Verif Require Import Base CharTypes MacroTable Bytes BytesSpec BytesProofs Object ObjectSpec ObjectProofs Linker LinkerSpec LinkerProofs.
Local Open Scope Z_scope.
Local Open Scope list_scope.

Lemma nth_concat l : forall i s k, nth_error l i = Some s -> (k < length (sec_data s))%nat ->
  nth_error (concat (map sec_data l)) (Z.to_nat (sum_sizes (firstn i l)) + k) = nth_error (sec_data s) k.
Proof.
  induction l as [|x t IH]; intros i s k N L; [destruct i; discriminate|]. destruct i as [|i]; cbn [nth_error firstn sum_sizes map concat] in *.
  - inversion N; subst. apply nth_error_app1. exact L.
  - pose proof (sum_sizes_nonneg (firstn i t)). rewrite nth_error_app2 by lia.
    replace (Z.to_nat (Z.of_nat (length (sec_data x)) + sum_sizes (firstn i t)) + k - length (sec_data x))%nat
      with (Z.to_nat (sum_sizes (firstn i t)) + k)%nat by lia. auto.
Qed.

(** Linking a linkable object succeeds; the image holds the sections one after
    the other, every relocated place holds the value of its formula, and all
    other bytes are the bytes of the sections. *)
Theorem C45_link_partial : forall o, linkable o ->
  exists exe, linker_link [o] = Ok exe /\
    Z.of_nat (length (exe_data exe)) = image_size o /\
    (forall i s r y, nth_error (sections o) i = Some s -> In r (sec_relocations s) -> nth_error (symbols o) (r_idx r) = Some y ->
       window (exe_data exe) (Z.to_nat (start_of o i + r_offset r)) (relocation_bytes r) =
       le_bytes (relocation_bytes r) (formula o i r y)) /\
    (forall i s k b, nth_error (sections o) i = Some s -> nth_error (sec_data s) k = Some b -> ~ patched s k ->
       nth_error (exe_data exe) (Z.to_nat (start_of o i) + k) = Some b).
Proof.
  intros o K. cbn [linker_link]. unfold link_object.
  destruct (place (sections o) []) as [data offs] eqn:PL.
  assert (DE : data = concat (map sec_data (sections o))) by (pose proof (place_data (sections o) []) as H; rewrite PL in H; exact H).
  assert (OE : offs = snd (place (sections o) [])) by (rewrite PL; reflexivity).
  assert (LD : Z.of_nat (length data) = image_size o).
  { rewrite DE, concat_length. unfold image_size. rewrite start_of_sum, firstn_all. reflexivity. }
  rewrite OE. rewrite (relocate_sections_ok o K (sections o) 0); auto.
  2: { apply place_length. }
  cbn [bind].
  destruct (entry_ok o (symbols o) 0 (symbols_defined o K)) as [e ->]. cbn [bind].
  eexists. split; [reflexivity|]. cbn [exe_data].
  destruct (patches_from_ok o K (sections o) 0) as (F & D & IN & OUT); [auto|reflexivity|].
  destruct (apply_ok (patches_from o 0 (sections o)) data) as (LA & W & KEEP); auto.
  { eapply Forall_impl; [|exact F]. cbn. intros p. lia. }
  split; [congruence|]. split.
  - intros i s r y N I Y. specialize (IN i s r N I). cbn [Nat.add] in IN. specialize (W _ IN).
    rewrite patch_length in W. cbn [patch_of fst snd] in W. rewrite Y in W. exact W.
  - intros i s k b N B NP. assert (LK : (k < length (sec_data s))%nat) by (apply nth_error_Some; congruence).
    rewrite KEEP.
    + rewrite DE, start_of_sum, (nth_concat _ _ _ _ N LK). exact B.
    + intros p IP. destruct (OUT p IP) as (j & s' & r & N' & IR & ->). cbn [Nat.add].
      pose proof (relocations_ok o K s' (nth_error_In _ _ N')) as RO. rewrite Forall_forall in RO. specialize (RO r IR).
      unfold patch_end. rewrite patch_length. cbn [patch_of fst].
      pose proof (start_range o K i) as SI. pose proof (start_range o K j) as SJ.
      destruct (Nat.lt_total i j) as [LT|[->|GT]].
      * assert (start_of o i + Z.of_nat (length (sec_data s)) <= start_of o j).
        { rewrite <- (start_step o i s N), !start_of_sum. replace j with (S i + (j - S i))%nat by lia.
          clear. generalize (j - S i)%nat. intros d.
          rewrite <- (firstn_skipn (S i) (firstn (S i + d) (sections o))), firstn_firstn.
          replace (Nat.min (S i) (S i + d)) with (S i) by lia. rewrite sum_sizes_app.
          pose proof (sum_sizes_nonneg (skipn (S i) (firstn (S i + d) (sections o)))). lia. }
        destruct RO as (P & _). lia.
      * rewrite N' in N. inversion N; subst s'.
        assert (~ (r_offset r <= Z.of_nat k < r_offset r + Z.of_nat (relocation_bytes r))) by (intros H; apply NP; exists r; auto).
        destruct RO as (P & _). lia.
      * assert (start_of o j + Z.of_nat (length (sec_data s')) <= start_of o i).
        { rewrite <- (start_step o j s' N'), !start_of_sum. replace i with (S j + (i - S j))%nat by lia.
          clear. generalize (i - S j)%nat. intros d.
          rewrite <- (firstn_skipn (S j) (firstn (S j + d) (sections o))), firstn_firstn.
          replace (Nat.min (S j) (S j + d)) with (S j) by lia. rewrite sum_sizes_app.
          pose proof (sum_sizes_nonneg (skipn (S j) (firstn (S j + d) (sections o)))). lia. }
        destruct RO as (P & B' & _). lia.
Qed.
Print Assumptions C45_link_partial.

(** The program starts at the symbol named _start. *)
Theorem C45_entry : forall o exe y, linkable o -> linker_link [o] = Ok exe ->
  In y (symbols o) -> sym_name y = Some (chars "_start") ->
  (forall z, In z (symbols o) -> sym_name z = Some (chars "_start") -> z = y) ->
  exe_entry exe = symbol_address o y.
Proof.
  intros o exe y K L I N U. cbn [linker_link] in L. unfold link_object in L.
  destruct (place (sections o) []) as [data offs] eqn:PL.
  assert (OE : offs = snd (place (sections o) [])) by (rewrite PL; reflexivity). rewrite OE in L.
  destruct (relocate_sections _ _ _ _) as [d| |]; try discriminate. cbn [bind] in L.
  rewrite (entry_start o K (symbols o) 0 (symbols_defined o K)) in L. cbn [bind] in L. inversion L; subst exe. cbn [exe_entry].
  clear - I N U.
  assert (G : forall l e, (In y l \/ e = symbol_address o y) -> (forall z, In z l -> sym_name z = Some (chars "_start") -> z = y) ->
    fold_left (fun e y => if match sym_name y with Some n => sv_cmp n (chars "_start") | None => false end
               then symbol_address o y else e) l e = symbol_address o y).
  { induction l as [|z t IH]; intros e H V; cbn [fold_left].
    - destruct H as [[]|H]. exact H.
    - apply IH; [|intros x IX; apply V; right; exact IX].
      destruct (sym_name z) as [n|] eqn:NZ.
      + destruct (sv_cmp n (chars "_start")) eqn:C.
        * right. apply ObjectProofs.sv_cmp_eq in C. subst n. rewrite (V z (or_introl eq_refl) NZ). reflexivity.
        * destruct H as [[->|H]|H]; auto. rewrite N in NZ. inversion NZ; subst n.
          rewrite (proj2 (ObjectProofs.sv_cmp_eq _ _) eq_refl) in C. discriminate.
      + destruct H as [[->|H]|H]; auto. congruence. }
  apply G; auto.
Qed.
Print Assumptions C45_entry.

(** Missing above: symbols of empty sections. The linker records every empty
    section at offset 0, so such a symbol gets the address of the start of the
    image instead of its own. *)
Definition empty_section_object : object :=
  {| sections := [{| sec_name := chars ".text"; sec_alignment := 0; sec_data := [195]; sec_relocations := [] |};
                  {| sec_name := chars ".data"; sec_alignment := 0; sec_data := [0; 0; 0; 0; 0; 0; 0; 0];
                     sec_relocations := [{| r_type := RELOCATE_64; r_idx := 0; r_offset := 0; r_add := 0 |}] |};
                  {| sec_name := chars ".bss"; sec_alignment := 0; sec_data := []; sec_relocations := [] |}];
     symbols := [{| sym_name := Some (chars "end"); sym_value := 0; sym_size := 0; sym_global := true; sym_section := 2 |}] |}.
Definition end_symbol : symbol := {| sym_name := Some (chars "end"); sym_value := 0; sym_size := 0; sym_global := true; sym_section := 2 |}.
Definition end_reference : relocation := {| r_type := RELOCATE_64; r_idx := 0; r_offset := 0; r_add := 0 |}.
Theorem C45_empty_section_refuted : exists o i s r y,
  nth_error (sections o) i = Some s /\ In r (sec_relocations s) /\ nth_error (symbols o) (r_idx r) = Some y /\
  formula o i r y = 65545 /\
  match linker_link [o] with
  | Ok exe => le_value (window (exe_data exe) (Z.to_nat (start_of o i + r_offset r)) (relocation_bytes r)) = 65536
  | _ => False
  end.
Proof.
  exists empty_section_object, 1%nat, (nth 1 (sections empty_section_object) (Build_section [] 0 [] [])), end_reference, end_symbol.
  split; [reflexivity|]. split; [left; reflexivity|]. split; [reflexivity|]. split; [vm_compute; reflexivity|].
  vm_compute. reflexivity.
Qed.
Print Assumptions C45_empty_section_refuted.

(** A reference to a symbol that is nowhere defined stops the link. *)
Theorem C45_undefined_symbol : forall o s r y t,
  sections o = s :: t -> sec_relocations s = r :: nil -> nth_error (symbols o) (r_idx r) = Some y -> sym_section y = -1 ->
  linker_link [o] = Fail.
Proof.
  intros o s r y t S R Y U. cbn [linker_link]. unfold link_object. rewrite S. cbn [place].
  destruct (place t ([] ++ sec_data s)) as [d os]. cbn [combine relocate_sections]. rewrite R. cbn [relocate_list].
  unfold relocate. rewrite Y, U. reflexivity.
Qed.
Print Assumptions C45_undefined_symbol.

(** A call from .text to a function later in .text and a pointer in .data. *)
Definition linkable_sample : object :=
  {| sections := [{| sec_name := chars ".text"; sec_alignment := 0; sec_data := [232; 0; 0; 0; 0; 195; 195];
                     sec_relocations := [{| r_type := RELOCATE_32_RELATIVE; r_idx := 1; r_offset := 1; r_add := -4 |}] |};
                  {| sec_name := chars ".data"; sec_alignment := 0; sec_data := [0; 0; 0; 0; 0; 0; 0; 0];
                     sec_relocations := [{| r_type := RELOCATE_64; r_idx := 1; r_offset := 0; r_add := 1 |}] |}];
     symbols := [{| sym_name := Some (chars "_start"); sym_value := 0; sym_size := 0; sym_global := true; sym_section := 0 |};
                 {| sym_name := Some (chars "f"); sym_value := 6; sym_size := 0; sym_global := true; sym_section := 0 |}] |}.
Example C45_example : linkable linkable_sample /\
  linker_link [linkable_sample] =
    Ok {| exe_data := [232; 1; 0; 0; 0; 195; 195; 7; 0; 1; 0; 0; 0; 0; 0]; exe_entry := 65536 |}.
Proof.
  split; [|vm_compute; reflexivity]. split.
  - repeat constructor; try (vm_compute; congruence); eexists; (split; [reflexivity|discriminate]).
  - intros s [<-|[<-|[]]]; (apply Forall_cons; [|apply Forall_nil]); unfold relocation_ok, relocation_bytes; cbn; lia.
  - intros s [<-|[<-|[]]]; (constructor; constructor).
  - vm_compute. reflexivity.
Qed.
