(** What C says about the definitions of file-scope objects (C11 6.2.2 and
    6.9.2), about a sequence of declarations as the source has them. *)
From Verif Require Import Base MacroTable Tentative.

(** The file-scope declarations of [x], in order. *)
Fixpoint declarations_of (x : list Z) (l : list event) : list declaration :=
  match l with
  | [] => []
  | AtFile d :: l => if sv_cmp (d_name d) x then d :: declarations_of x l else declarations_of x l
  | InBlock _ :: l => declarations_of x l
  end.
(** The objects with static storage duration declared in blocks. *)
Fixpoint block_statics (l : list event) : list declaration :=
  match l with
  | [] => []
  | InBlock d :: l => if is_static d then d :: block_statics l else block_statics l
  | AtFile _ :: l => block_statics l
  end.

(** A definition proper has an initializer; a tentative one has none and is
    not extern (6.9.2p1-2). *)
Definition real (d : declaration) : Prop := d_init d <> None.
Definition tentative_definition (d : declaration) : Prop := d_init d = None /\ d_storage d <> Extern.

(** 6.2.2p3-5: internal linkage comes from static on the first declaration. *)
Definition external_linkage (ds : list declaration) : bool :=
  match ds with d :: _ => negb (is_static d) | [] => true end.
(** 6.2.2p7: no identifier has both linkages; an extern declaration takes the
    linkage of the declaration before it. *)
Definition one_linkage (ds : list declaration) : Prop :=
  forall d, In d ds -> d_storage d <> Extern -> negb (is_static d) = external_linkage ds.
(** 6.9p5: there is one definition proper at most. *)
Definition one_definition (ds : list declaration) : Prop :=
  forall before d after d', ds = before ++ d :: after -> real d -> In d' (before ++ after) -> ~ real d'.

(** A type with a size. *)
Definition complete_type (t : otype) : Prop := match t with TIncomplete _ => False | _ => True end.

(** The objects emitted under the name [x]. *)
Definition emitted (x : list Z) (vs : list static_var) : list static_var := filter (fun v => sv_cmp (v_label v) x) vs.

(** An identifier begins with a letter or an underscore. *)
Definition c_name (x : list Z) : Prop :=
  exists c t, x = c :: t /\ (65 <= c <= 90 \/ c = 95 \/ 97 <= c <= 122).
