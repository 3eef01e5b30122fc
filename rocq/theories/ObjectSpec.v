(** What building an object file means, independently of the tables of the
    builder: sections and symbols are known by name. *)
From Coq Require Import String.
From Verif Require Import Base CharTypes Object.
Local Open Scope Z_scope.
Local Open Scope list_scope.

Definition name_eqb (a b : list Z) : bool := if list_eq_dec Z.eq_dec a b then true else false.

(** The [n] little-endian bytes of a number. *)
Fixpoint le_bytes (n : nat) (v : Z) : list Z :=
  match n with O => [] | S k => v mod 256 :: le_bytes k (v / 256) end.

(** A relocation: which kind, at which offset, of which symbol, plus what. *)
Record fixup := { f_type : relocation_type; f_symbol : list Z; f_offset : Z; f_add : Z }.
(** The definition of a symbol: where it is and whether other files see it. *)
Record definition := { d_section : list Z; d_offset : Z; d_global : bool }.

Record view := {
  here : list Z;                                (* the name of the section being written *)
  bytes_of : list Z -> list Z;                  (* the bytes written to each section so far *)
  fixups_of : list Z -> list fixup;             (* the relocations requested in each section, in order *)
  definition_of : list Z -> option definition   (* the last definition of each symbol *)
}.

Definition upd {A} (f : list Z -> A) (k : list Z) (v : A) : list Z -> A := fun n => if name_eqb n k then v else f n.

Definition view_start : view :=
  {| here := chars ".text"; bytes_of := fun _ => []; fixups_of := fun _ => []; definition_of := fun _ => None |}.

Definition position (v : view) : Z := Z.of_nat (length (bytes_of v (here v))).
Definition append (v : view) (d : list Z) : view :=
  {| here := here v; bytes_of := upd (bytes_of v) (here v) (bytes_of v (here v) ++ d);
     fixups_of := fixups_of v; definition_of := definition_of v |}.

(** The fewest zero bytes that bring [n] to a multiple of [a]. *)
Definition padding (n a : Z) : Z := (- n) mod a.

Definition meaning (r : request) (v : view) : view :=
  match r with
  | Section_ name => {| here := name; bytes_of := bytes_of v; fixups_of := fixups_of v; definition_of := definition_of v |}
  | Write data => append v data
  | WriteByte b => append v [b mod 256]
  | WriteQuad q => append v (le_bytes 8 q)
  | WriteZero size => append v (repeat 0 (Z.to_nat size))
  | Align a => append v (repeat 0 (Z.to_nat (padding (position v) a)))
  | Relocate label offset add type =>
      {| here := here v; bytes_of := bytes_of v;
         fixups_of := upd (fixups_of v) (here v)
           (fixups_of v (here v) ++ [{| f_type := type; f_symbol := label; f_offset := (position v + offset) mod 2 ^ 64; f_add := add |}]);
         definition_of := definition_of v |}
  | Define label global =>
      {| here := here v; bytes_of := bytes_of v; fixups_of := fixups_of v;
         definition_of := upd (definition_of v) label
           (Some {| d_section := here v; d_offset := position v; d_global := global |}) |}
  end.
Definition meaning_all (l : list request) (v : view) : view := fold_left (fun v r => meaning r v) l v.

(** Only alignments that are not zero can be asked for. *)
Definition request_ok (r : request) : Prop := match r with Align a => 0 < a | _ => True end.

(** The finished object file is the view: one section per section name used,
    one symbol per symbol name used, with the bytes, relocations and
    definitions of the view. *)
Definition mentions (l : list request) (name : list Z) : Prop :=
  exists r, In r l /\ match r with Relocate n _ _ _ => n = name | Define n _ => n = name | _ => False end.

Definition fixup_of (o : object) (r : relocation) : option fixup :=
  match nth_error (symbols o) (r_idx r) with
  | Some y => match sym_name y with
              | Some n => Some {| f_type := r_type r; f_symbol := n; f_offset := r_offset r; f_add := r_add r |}
              | None => None
              end
  | None => None
  end.

Record object_shows (o : object) (v : view) : Prop := {
  (* no section name is used twice and each section holds its bytes and relocations *)
  sections_unique : NoDup (map sec_name (sections o));
  section_contents : forall s, In s (sections o) ->
    sec_data s = bytes_of v (sec_name s) /\ map (fixup_of o) (sec_relocations s) = map Some (fixups_of v (sec_name s));
  (* sections that do not exist have no contents *)
  section_absent : forall n, ~ In n (map sec_name (sections o)) -> bytes_of v n = [] /\ fixups_of v n = [];
  (* no symbol name is used twice, and each symbol is defined where the view says *)
  symbols_unique : NoDup (map sym_name (symbols o));
  symbol_named : forall y, In y (symbols o) -> exists n, sym_name y = Some n /\
    match definition_of v n with
    | Some d => exists s, nth_error (sections o) (Z.to_nat (sym_section y)) = Some s /\ 0 <= sym_section y /\
                  sec_name s = d_section d /\ sym_value y = d_offset d /\ sym_global y = d_global d
    | None => sym_section y = -1
    end;
  symbol_absent : forall n, ~ In (Some n) (map sym_name (symbols o)) -> definition_of v n = None
}.
