(** What C says about initializers (C11 6.7.9), by the position of the current
    object: independent of how the parser goes about it. *)
From Coq Require Import String.
From Verif Require Import Base InitParse.
Local Open Scope Z_scope.
Local Open Scope list_scope.

(** * Syntax *)
Inductive designator := DIndex (e : expr) | DMember (name : list Z).
(** An expression, a string literal, or a braced list of designations (empty
    for items without) and initializers, with or without a comma before the
    closing brace. *)
Inductive ini :=
| Ex (e : expr)
| Str (k : skind) (s : list Z)
| Braced (items : list (list designator * ini)) (comma : bool).

Fixpoint print_designators (ds : list designator) : list tok :=
  match ds with
  | [] => []
  | DIndex e :: ds => TLbrack :: TExpr e :: TRbrack :: print_designators ds
  | DMember name :: ds => TDot :: TIdent name :: print_designators ds
  end.
Definition print_designation (ds : list designator) : list tok :=
  match ds with [] => [] | _ => print_designators ds ++ [TAssign] end.
Fixpoint print (i : ini) : list tok :=
  match i with
  | Ex e => [TExpr e]
  | Str k s => [TStr k s]
  | Braced items comma =>
      TLbrace ::
      (fix all (l : list (list designator * ini)) : list tok :=
         match l with
         | [] => []
         | [(ds, i)] => print_designation ds ++ print i ++ (if comma then [TComma] else [])
         | (ds, i) :: l => print_designation ds ++ print i ++ TComma :: all l
         end) items ++ [TRbrace]
  end.

(** * Places in an object *)
(** A subobject is given by the index of the member or element at each level. *)
Definition path := list nat.
(** How many members or elements there are; None for an array of unknown
    length. *)
Definition count (t : ty) : option nat :=
  match t with
  | Scalar _ => Some 0%nat
  | Array n _ => Some n
  | Open _ => None
  | Record _ _ _ fs => Some (length fs)
  end.
Definition sub (t : ty) (k : nat) : option ty :=
  match t with
  | Scalar _ => None
  | Array n e => if (k <? n)%nat then Some e else None
  | Open e => Some e
  | Record _ _ _ fs => option_map snd (nth_error fs k)
  end.
Fixpoint type_at (t : ty) (p : path) : option ty :=
  match p with
  | [] => Some t
  | k :: p => match sub t k with Some u => type_at u p | None => None end
  end.
(** Whether the member or element [k] is followed by another one that the
    list goes on with: for a union it is not. *)
Definition followed (t : ty) (k : nat) : bool :=
  match t with
  | Record true _ _ _ => false
  | _ => match count t with Some n => (S k <? n)%nat | None => true end
  end.
(** The subobject after the one at [p]: the next member of the innermost
    aggregate around it that has one. *)
Fixpoint next (t : ty) (p : path) : option path :=
  match p with
  | [] => None
  | k :: p =>
      match match sub t k with Some u => next u p | None => None end with
      | Some q => Some (k :: q)
      | None => if followed t k then Some [S k] else None
      end
  end.

(** The member called [name], which may be one of an unnamed struct or union
    member. *)
Inductive member : ty -> list Z -> path -> Prop :=
| member_here : forall union tag const fs k name ft, name <> [] ->
    nth_error fs k = Some (name, ft) -> member (Record union tag const fs) name [k]
| member_inner : forall union tag const fs k name ft p,
    nth_error fs k = Some ([], ft) -> member ft name p -> member (Record union tag const fs) name (k :: p).
(** Names are not ambiguous. *)
Definition unambiguous (t : ty) : Prop := forall name p q, member t name p -> member t name q -> p = q.

(** The subobject that a designation names. *)
Inductive designates : ty -> list designator -> path -> Prop :=
| designates_nil : forall t, designates t [] []
| designates_index : forall t e k u ds p,
    match t with Array _ _ | Open _ => True | _ => False end ->
    e_const e = Some k -> sub t k = Some u -> designates u ds p -> designates t (DIndex e :: ds) (k :: p)
| designates_member : forall t name q u ds p,
    member t name q -> type_at t q = Some u -> designates u ds p -> designates t (DMember name :: ds) (q ++ p).

Fixpoint prefix (p q : path) : bool :=
  match p, q with
  | [], _ => true
  | a :: p, b :: q => (a =? b)%nat && prefix p q
  | _, _ => false
  end.

(** [strict] stands for the parts of C that the parser handles: with
    [strict = false] this is C, with [strict = true] there are restrictions. *)
Section Strict.
Variable wide : kind.
Variable strict : bool.

(** The arrays a string literal initializes (6.7.9p14-15). *)
Definition character_type (sk : skind) (k : kind) : Prop :=
  match sk with
  | SPlain => k = KChar \/ k = KSchar \/ k = KUchar
  | SWide => k = wide
  | S16 => k = KUshort
  | S32 => k = KUint
  end.

(** [takes t i v]: the initializer [i], not braced, gives the object of type
    [t] as a whole its value (6.7.9p11, p13, p14). *)
Inductive takes : ty -> ini -> value -> Prop :=
| takes_scalar : forall k e, takes (Scalar k) (Ex e) (VExpr e)
| takes_pointer : forall k sk s, takes (Scalar k) (Str sk s) (VPtr s)
| takes_record : forall union tag const const' fs e, e_record e = Some (tag, const') ->
    (strict = true -> const' = const) -> takes (Record union tag const fs) (Ex e) (VExpr e)
| takes_string : forall n k sk s, character_type sk k -> takes (Array n (Scalar k)) (Str sk s) (VStr s)
| takes_string_open : forall k sk s, character_type sk k -> takes (Open (Scalar k)) (Str sk s) (VStr s).
(** An expression of a struct type that differs in const alone is taken too:
    when is an object of this type initialized member by member. *)
Definition is_string_for (t : ty) (i : ini) : Prop :=
  match t, i with
  | Array _ (Scalar k), Str sk _ | Open (Scalar k), Str sk _ => character_type sk k
  | _, _ => False
  end.
Definition is_value_for (t : ty) (i : ini) : Prop :=
  match t, i with
  | Scalar _, Ex _ | Scalar _, Str _ _ => True
  | Record _ tag _ _, Ex e => exists const, e_record e = Some (tag, const)
  | _, _ => is_string_for t i
  end.
Definition is_braced (i : ini) : Prop := match i with Braced _ _ => True | _ => False end.

(** The subobject of [t] that an initializer for [t] is used for (6.7.9p20):
    [t] itself if it is braced or gives the whole value, otherwise the first
    member or element, and so on. *)
Inductive lands : ty -> ini -> path -> Prop :=
| lands_here : forall t i, is_braced i \/ is_value_for t i -> lands t i []
| lands_first : forall t i u p, ~ is_braced i -> ~ is_value_for t i ->
    sub t 0 = Some u -> lands u i p -> lands t i (0%nat :: p).

(** A step of initialization: the object at the place gets the value, or
    (None) it starts afresh, all its parts being zero until set. *)
Definition write : Type := path * option value.
Definition under (q : path) (w : write) : write := (q ++ fst w, snd w).

(** The parser gets stuck (strict only) where the list goes on after the last
    member of an object that a designator with several levels, to [g], has
    entered. *)
Definition stuck (t : ty) (g cur : path) : Prop :=
  exists p k p' u, g = p ++ k :: p' /\ p <> [] /\ type_at t p = Some u /\ followed u k = false /\ prefix (p ++ [k]) cur = false.

(** [inits t i ws]: the object of type [t] is initialized by [i], in steps
    [ws]. [lists t g cur items ws]: so are the subobjects that the rest of a
    braced list is for, when the next one is [cur], and the last designation
    was [g]. *)
Inductive inits : ty -> ini -> list write -> Prop :=
| inits_value : forall t i v, takes t i v -> inits t i [([], Some v)]
| inits_braced_value : forall t i v comma,
    is_scalar t = true \/ is_string_for t i -> (strict = true -> comma = false) ->
    takes t i v -> inits t (Braced [([], i)] comma) [([], Some v)]
| inits_list : forall t items comma ws,
    is_aggregate t = true -> items <> [] -> (forall i, items = [([], i)] -> ~ is_string_for t i) ->
    lists t [] (Some [0%nat]) items ws -> inits t (Braced items comma) (([], None) :: ws)
with lists : ty -> path -> option path -> list (list designator * ini) -> list write -> Prop :=
| lists_end : forall t g cur, lists t g cur [] []
| lists_next : forall t g p i q u ws items ws', (strict = true -> ~ stuck t g p) ->
    item t p i q u ws -> lists t g (next t q) items ws' ->
    lists t g (Some p) (([], i) :: items) (map (under q) ws ++ ws')
| lists_designated : forall t g cur ds p i q u ws items ws', ds <> [] -> designates t ds p ->
    item t p i q u ws -> lists t p (next t q) items ws' ->
    lists t g cur ((ds, i) :: items) (map (under q) ws ++ ws')
with item : ty -> path -> ini -> path -> ty -> list write -> Prop :=
| item_intro : forall t p i u0 d u ws, type_at t p = Some u0 -> lands u0 i d -> type_at u0 d = Some u ->
    inits u i ws -> item t p i (p ++ d) u ws.
End Strict.

(** The length an array of unknown length gets (6.7.9p22): one more than the
    largest index used. *)
Definition used (ws : list write) : nat :=
  fold_right (fun w n => Nat.max (match fst w with [] => 0 | k :: _ => S k end) n) 0%nat ws.
Definition completed (t : ty) (ws : list write) : ty :=
  match t with
  | Open e => match ws with [([], Some (VStr s))] => Array (length s) e | _ => Array (used ws) e end
  | _ => t
  end.

(** Two places share memory: one is part of the other, or they are in
    different members of a union. *)
Fixpoint overlap (t : ty) (p q : path) : bool :=
  match p, q with
  | [], _ | _, [] => true
  | a :: p, b :: q =>
      if (a =? b)%nat then match sub t a with Some u => overlap u p q | None => true end
      else match t with Record true _ _ _ => true | _ => false end
  end.
(** What is left after all steps: the values that no later step replaces
    (6.7.9p19). Everything else is zero. *)
Definition has_value (t : ty) (ws : list write) (p : path) (v : value) : Prop :=
  exists ws1 ws2, ws = ws1 ++ (p, Some v) :: ws2 /\ forall w, In w ws2 -> overlap t (fst w) p = false.

(** No part is initialized twice, except that a whole object, not by a braced
    list, replaces what was given for it before. *)
Definition no_second_list (t : ty) (ws : list write) : Prop :=
  forall ws1 w ws2, ws = ws1 ++ w :: ws2 ->
  forall p v, In (p, Some v) ws1 -> overlap t (fst w) p = true -> prefix (fst w) p = true /\ snd w <> None.

(** Types that can be initialized: no empty ones, names are not ambiguous, and
    only the whole may be an array of unknown length. *)
Fixpoint regular (t : ty) : Prop :=
  match t with
  | Scalar _ => True
  | Array n e => (0 < n)%nat /\ regular e
  | Open _ => False
  | Record _ _ _ fs =>
      fs <> [] /\ unambiguous t /\
      (fix all (l : list (list Z * ty)) := match l with [] => True | (_, ft) :: l => regular ft /\ all l end) fs
  end.
Definition initializable (t : ty) : Prop := match t with Open e => regular e | _ => regular t end.

(** The value the resulting initializer has for a place. *)
Fixpoint leaf (i : init) (p : path) : option value :=
  match i, p with
  | ILeaf v, [] => Some v
  | IBrace l, k :: p => match nth_error l k with Some i => leaf i p | None => None end
  | _, _ => None
  end.
