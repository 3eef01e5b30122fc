(** What the packing pragmas mean (as in the compilers that introduced them). *)
From Coq Require Import String.
From Verif Require Import Base CharTypes Arch Tokens CTypesSpec IntLitSpec Pragma.
Local Open Scope Z_scope.
Local Open Scope list_scope.

Inductive pragma :=
| Pack (n : Z)      (* pack(n): members are aligned to at most n *)
| PackDefault       (* pack(): back to the natural alignment *)
| Push              (* pack(push): remember the packing *)
| PushPack (n : Z)  (* pack(push, n): remember it and set a new one *)
| Pop               (* pack(pop): the packing of the matching push *)
| Other (name : list Z) (rest : list ptok).  (* any other pragma *)

(** The packing in force and those remembered, innermost first; 0 is the natural
    alignment. A pop without push does nothing. *)
Definition means (i : pragma) (s : Z * list Z) : Z * list Z :=
  let '(cur, saved) := s in
  match i with
  | Pack n => (n, saved)
  | PackDefault => (0, saved)
  | Push => (cur, cur :: saved)
  | PushPack n => (n, cur :: saved)
  | Pop => match saved with [] => (cur, []) | c :: t => (c, t) end
  | Other _ _ => (cur, saved)
  end.
Definition history (h : list pragma) : Z * list Z := fold_left (fun s i => means i s) h (0, []).

(** How it is written: the tokens of the line. *)
Definition tok (ty : Z) (s : list Z) : ptok := {| p_type := ty; p_str := s; p_first := false |}.
Definition hash : ptok := {| p_type := PP_DIRECTIVE; p_str := chars "#"; p_first := true |}.
Definition opening : list ptok := [hash; tok T_IDENT (chars "pragma"); tok T_IDENT (chars "pack"); tok T_LPAR (chars "(")].
(** A number token that spells [n]. *)
Definition spells (m : abi) (n : Z) (t : ptok) : Prop :=
  exists r text digits suffix u, literal r text digits /\ In (suffix, u) suffixes /\ digits_value r digits = n /\
    literal_type m r u n <> None /\ t = tok T_NUM (text ++ suffix).
Inductive written (m : abi) : pragma -> list ptok -> Prop :=
| w_pack : forall n t, 0 <= n < 2 ^ 31 -> spells m n t -> written m (Pack n) (opening ++ [t; tok T_RPAR (chars ")")])
| w_default : written m PackDefault (opening ++ [tok T_RPAR (chars ")")])
| w_push : written m Push (opening ++ [tok T_IDENT (chars "push"); tok T_RPAR (chars ")")])
| w_push_pack : forall n t, 0 <= n < 2 ^ 31 -> spells m n t ->
    written m (PushPack n) (opening ++ [tok T_IDENT (chars "push"); tok T_COMMA (chars ","); t; tok T_RPAR (chars ")")])
| w_pop : written m Pop (opening ++ [tok T_IDENT (chars "pop"); tok T_RPAR (chars ")")])
| w_other : forall name rest, name <> chars "pack" -> Forall (fun t => p_first t = false /\ p_type t <> T_EOI) rest ->
    written m (Other name rest) (hash :: tok T_IDENT (chars "pragma") :: tok T_IDENT name :: rest).
Definition written_all (m : abi) (h : list pragma) (lines : list (list ptok)) : Prop := Forall2 (written m) h lines.
(** What follows starts on a line of its own. *)
Definition new_line (ts : list ptok) : Prop := p_first (T0 ts) = true.
