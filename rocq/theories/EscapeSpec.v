(** Specifications: how a GNU-as string operand is read, and what C11 6.4.4.4
    says an escape sequence denotes. *)
From Coq Require Import String.
From Verif Require Import Base CharTypes.

Definition oct_digit (c : Z) : bool := (48 <=? c) && (c <=? 55).
Definition hex_digit (c : Z) : bool :=
  ((48 <=? c) && (c <=? 57)) || ((65 <=? c) && (c <=? 70)) || ((97 <=? c) && (c <=? 102)).
Definition hex_val (c : Z) : Z :=
  if c <=? 57 then c - 48 else if c <=? 70 then c - 55 else c - 87.

(** GNU as manual, section "Strings": backslash followed by b, f, n, r, t, backslash or quote, or by octal digits (one to
    three octal digits, value modulo 256); an unescaped quote ends the string;
    any other printable ASCII byte stands for itself. [None] = not a string body. *)
Definition gas_simple (c : Z) : option Z :=
  if c =? 98 then Some 8 else if c =? 102 then Some 12 else if c =? 110 then Some 10
  else if c =? 114 then Some 13 else if c =? 116 then Some 9
  else if c =? 92 then Some 92 else if c =? 34 then Some 34 else None.

Definition ocons (x : Z) (o : option (list Z)) : option (list Z) :=
  match o with Some l => Some (x :: l) | None => None end.

Fixpoint gas_read (s : list Z) : option (list Z) :=
  match s with
  | [] => Some []
  | c :: t =>
    if c =? 34 then None
    else if negb (c =? 92) then (if (32 <=? c) && (c <? 127) then ocons c (gas_read t) else None)
    else match t with
         | [] => None
         | a :: t1 =>
           if oct_digit a then
             match t1 with
             | b :: t2 =>
               if oct_digit b then
                 match t2 with
                 | d :: t3 =>
                   if oct_digit d
                   then ocons (((a - 48) * 64 + (b - 48) * 8 + (d - 48)) mod 256) (gas_read t3)
                   else ocons ((a - 48) * 8 + (b - 48)) (gas_read t2)
                 | [] => ocons ((a - 48) * 8 + (b - 48)) (gas_read t2)
                 end
               else ocons (a - 48) (gas_read t1)
             | [] => ocons (a - 48) (gas_read t1)
             end
           else match gas_simple a with
                | Some v => ocons v (gas_read t1)
                | None => None
                end
         end
  end.

(** C11 6.4.4.4: an escape sequence and the value it denotes. *)
Inductive c_escape : list Z -> Z -> Prop :=
| esc_simple c v : In (c, v) [(39,39);(34,34);(63,63);(92,92);(97,7);(98,8);(102,12);(110,10);(114,13);(116,9);(118,11)] ->
    c_escape [92; c] v
| esc_oct ds : (1 <= length ds <= 3)%nat -> forallb oct_digit ds = true ->
    c_escape (92 :: ds) (fold_left (fun acc d => acc * 8 + (d - 48)) ds 0)
| esc_hex ds : ds <> [] -> forallb hex_digit ds = true ->
    c_escape (92 :: 120 :: ds) (fold_left (fun acc d => acc * 16 + hex_val d) ds 0).

(** The escape ends there: a longest-match scanner stops before [next]. *)
Definition escape_ends (e : list Z) (next : Z) : Prop :=
  match e with
  | 92 :: 120 :: _ => hex_digit next = false
  | 92 :: d :: t => if oct_digit d then (length t = 2)%nat \/ oct_digit next = false else True
  | _ => True
  end.

(** Assembling the line [TAB .string "body" NEWLINE]: the bytes of the body
    followed by a NUL. *)
Definition gas_string_line (line : list Z) : option (list Z) :=
  let pre := chars "	.string """ in
  let n := length line in
  if list_eq_dec Z.eq_dec (firstn (length pre) line) pre then
    if list_eq_dec Z.eq_dec (skipn (n - 2) line) (chars """" ++ [10]) then
      match gas_read (firstn (n - 2 - length pre) (skipn (length pre) line)) with
      | Some l => Some (l ++ [0])
      | None => None
      end
    else None
  else None.

(** A C string literal body: ordinary characters and escapes accepted by [P].
    [body_value P b v next] says that body [b], followed by the character [next],
    denotes bytes [v] (C11 6.4.5p6, execution character set = source bytes). *)
Inductive body_value (P : list Z -> Prop) : list Z -> list Z -> Z -> Prop :=
| body_nil next : body_value P [] [] next
| body_plain c b v next : 0 <= c < 256 -> c <> 34 -> c <> 92 ->
    body_value P b v next -> body_value P (c :: b) (c :: v) next
| body_esc e x b v next : c_escape e x -> P e -> 0 <= x < 256 ->
    escape_ends e (hd next b) ->
    body_value P b v next -> body_value P (e ++ b) (x :: v) next.

(** Escapes other than hexadecimal ones with two or more digits. *)
Definition short_hex (e : list Z) : Prop :=
  match e with
  | 92 :: 120 :: _ :: _ :: _ => False
  | _ => True
  end.
