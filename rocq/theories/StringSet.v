(** Hide sets (src/preprocessor/string_set.c). A set is the list of its strings in
    array order; strings are lists of non-zero bytes (the NUL terminator is not
    represented). *)
From Verif Require Import Base.

(** strcmp of the C library: the sign of the first difference, bytes compared
    as unsigned char; the shorter string is smaller when it is a prefix. *)
Fixpoint strcmp (a b : list Z) : comparison :=
  match a, b with
  | [], [] => Eq
  | [], _ :: _ => Lt
  | _ :: _, [] => Gt
  | x :: a', y :: b' => match x ?= y with Eq => strcmp a' b' | c => c end
  end.

(** src/preprocessor/string_set.c:12-33 (string_set_intersection): the loop on
    the two remaining tails. *)
Fixpoint string_set_intersection (a : list (list Z)) : list (list Z) -> list (list Z) :=
  fix inner (b : list (list Z)) : list (list Z) :=
    match a, b with
    | x :: a', y :: b' =>
        match strcmp x y with
        | Eq => x :: string_set_intersection a' b'
        | Lt => string_set_intersection a' b
        | Gt => inner b'
        end
    | _, _ => []
    end.

(** src/preprocessor/string_set.c:35-61 (string_set_union): the loop, and the
    two loops appending what is left. *)
Fixpoint string_set_union (a : list (list Z)) : list (list Z) -> list (list Z) :=
  fix inner (b : list (list Z)) : list (list Z) :=
    match a, b with
    | x :: a', y :: b' =>
        match strcmp x y with
        | Eq => x :: string_set_union a' b'
        | Lt => x :: string_set_union a' b
        | Gt => y :: inner b'
        end
    | [], _ => b
    | _, [] => a
    end.

(** src/preprocessor/string_set.c:76-98 (string_set_insert): the first position
    whose string compares less than or equal. *)
Fixpoint string_set_insert (a : list (list Z)) (str : list Z) : list (list Z) :=
  match a with
  | [] => [str]
  | x :: t =>
      match strcmp x str with
      | Eq => a
      | Lt => str :: a
      | Gt => x :: string_set_insert t str
      end
  end.

(** src/preprocessor/string_set.c:100-107 (string_set_contains), with
    sv_string_cmp of src/string_view.c:8-13. *)
Fixpoint sv_string_cmp (v s : list Z) : bool :=
  match v, s with
  | [], [] => true
  | x :: v', y :: s' => (x =? y) && sv_string_cmp v' s'
  | _, _ => false
  end.
Definition string_set_contains (a : list (list Z)) (str : list Z) : bool :=
  existsb (fun s => sv_string_cmp str s) a.
