(** Scopes (C11 6.2.1, 6.2.3): a stack of scopes, each listing what it declares. *)
From Verif Require Import Base MacroTable Symbols.

(** A declaration: name space and name, and what it stands for. *)
Definition decl := (entry_id * Z)%type.
(** Innermost scope first. The last one is the file scope. *)
Definition scopes := list (list decl).
Definition names (i : entry_id) (d : decl) : Prop := fst d = i.
Definition kind_dec (a b : kind) : {a = b} + {a <> b}.
Proof. decide equality. Defined.
Definition id_dec (a b : entry_id) : {a = b} + {a <> b}.
Proof. decide equality; [apply (list_eq_dec Z.eq_dec)|apply kind_dec]. Defined.
Fixpoint declared (i : entry_id) (sc : list decl) : option Z :=
  match sc with [] => None | (j, d) :: r => if id_dec j i then Some d else declared i r end.
(** The innermost declaration. *)
Fixpoint visible (i : entry_id) (ss : scopes) : option Z :=
  match ss with [] => None | sc :: r => match declared i sc with Some d => Some d | None => visible i r end end.
Fixpoint redeclare (i : entry_id) (d : Z) (sc : list decl) : list decl :=
  match sc with [] => [] | (j, x) :: r => if id_dec j i then (j, d) :: r else (j, x) :: redeclare i d r end.
Definition file_scope (ss : scopes) : list decl := last ss [].
Definition with_file_scope (ss : scopes) (f : list decl) : scopes := removelast ss ++ [f].

(** What a call means. [None]: the call is refused. *)
Definition meaning (ss : scopes) (c : call) : option (scopes * option Z) :=
  let declare i d := match ss with
                     | sc :: r => match declared i sc with Some _ => None | None => Some (((i, d) :: sc) :: r, None) end
                     | [] => None
                     end in
  match c with
  | Enter => Some ([] :: ss, None)
  | Leave => Some (tl ss, None)
  | AddIdentifier [] _ => Some (ss, None)
  | AddIdentifier n d => declare (ENTRY_IDENTIFIER, n) d
  | AddStruct n d => declare (ENTRY_STRUCT, n) d
  | AddTypedef n d =>
      match ss with
      | sc :: r => match declared (ENTRY_TYPEDEF, n) sc with
                   | Some _ => Some (redeclare (ENTRY_TYPEDEF, n) d sc :: r, None)
                   | None => Some ((((ENTRY_TYPEDEF, n), d) :: sc) :: r, None)
                   end
      | [] => None
      end
  | DefineFunction n d =>
      match declared (ENTRY_IDENTIFIER, n) (file_scope ss) with
      | Some _ => Some (with_file_scope ss (redeclare (ENTRY_IDENTIFIER, n) d (file_scope ss)), None)
      | None => Some (with_file_scope ss (((ENTRY_IDENTIFIER, n), d) :: file_scope ss), None)
      end
  | Get k n => Some (ss, visible (k, n) ss)
  | GetHere k n => Some (ss, match ss with sc :: _ => declared (k, n) sc | [] => None end)
  | GetGlobal n => Some (ss, declared (ENTRY_IDENTIFIER, n) (file_scope ss))
  end.
Fixpoint meanings (ss : scopes) (l : list call) : option (list (option Z)) :=
  match l with
  | [] => Some []
  | c :: r => match meaning ss c with
              | None => None
              | Some (ss', o) => match meanings ss' r with Some os => Some (o :: os) | None => None end
              end
  end.
(** Every scope left has been entered: [n] scopes are open besides the file scope. *)
Fixpoint balanced (n : nat) (l : list call) : Prop :=
  match l with
  | [] => True
  | Enter :: r => balanced (S n) r
  | Leave :: r => match n with O => False | S m => balanced m r end
  | _ :: r => balanced n r
  end.
