(** Model of src/escape_sequence.c and of its users. Bytes are 0..255; a C
    char is the signed reading of its byte. *)
From Coq Require Import String.
From Verif Require Import Base CharTypes Utf8 Common.

(** src/escape_sequence.c:19-22: the octal loop. [k] is 3 - i. [s] is the
    memory from *start on and [adv] the current position [s - *start]. *)
Fixpoint octal_loop (k : nat) (i n : Z) (s : list Z) (result : Z) (adv : nat) : res (Z * nat) :=
  match k with
  | O => Ok (result, adv)
  | S k' =>
      if i <? n then
        let* c := get s adv in
        let* o := is_octal c in
        if o then
          let* d := char_to_int c in
          octal_loop k' (i + 1) n s (wrap 32 (wrap 32 (result * 8) + d)) (S adv)
        else Ok (result, adv)
      else Ok (result, adv)
  end.

(** src/escape_sequence.c:27-30: the hexadecimal loop; [k] is n - i. *)
Fixpoint hex_loop (k : nat) (s : list Z) (result : Z) (adv : nat) : res (Z * nat) :=
  match k with
  | O => Ok (result, adv)
  | S k' =>
      let* c := get s adv in
      let* h := is_hexadecimal c in
      if h then
        let* d := char_to_int c in
        hex_loop k' s (wrap 32 (wrap 32 (result * 8) + d)) (S adv)
      else Ok (result, adv)
  end.

(** src/escape_sequence.c:33-47: simple escapes. *)
Definition simple_escape (c : Z) : option Z :=
  if c =? 39 then Some 39        (* single quote *)
  else if c =? 34 then Some 34   (* double quote *)
  else if c =? 63 then Some 63   (* question mark *)
  else if c =? 92 then Some 92   (* backslash *)
  else if c =? 97 then Some 7    (* a *)
  else if c =? 98 then Some 8    (* b *)
  else if c =? 102 then Some 12  (* f *)
  else if c =? 110 then Some 10  (* n *)
  else if c =? 114 then Some 13  (* r *)
  else if c =? 116 then Some 9   (* t *)
  else if c =? 118 then Some 11  (* v *)
  else None.

(** src/escape_sequence.c:9-54 (escape_sequence_read): [None] is "return 0";
    [Some (v, adv)] is "return 1" with *out = v and *start advanced by adv. *)
Definition escape_sequence_read (s : list Z) (n : nat) : res (option (Z * nat)) :=
  match n with
  | O => Ok None
  | _ =>
    let* c0 := get s 0 in
    if negb (c0 =? 92) then Ok None else
    let* c1 := get s 1 in
    let* o := is_octal c1 in
    if o then
      let* r := octal_loop 3 0 (Z.of_nat n) s 0 1 in Ok (Some r)
    else if c1 =? 120 then
      let* r := hex_loop n s 0 2 in Ok (Some r)
    else match simple_escape c1 with
         | Some v => Ok (Some (v, 2%nat))
         | None => Fail
         end
  end.

(** src/escape_sequence.c:56-75, 77-83, 87-94: tables of CHAR_MAX = 127
    entries: index 127 is out of bounds. *)
Definition no_escape_chars : list Z :=
  chars "ABCDEFGHIJKLMNOPQRSTUVWXYZabcdefghijklmnopqrstuvwxyz0123456789!#%&()*+,-./:;<=>[]^_{|}~ ".
Definition needs_no_escape (c : Z) : res bool :=
  if 127 <=? c then Undef else Ok (existsb (Z.eqb c) no_escape_chars).
Definition has_simple_escape (c : Z) : res Z :=
  if 127 <=? c then Undef else
  Ok (if c =? 10 then 110 else if c =? 9 then 116 else if c =? 34 then 34
      else if c =? 39 then 39 else if c =? 92 then 92 else 0).
Definition has_complicated_escape (c : Z) : res Z :=
  if 127 <=? c then Undef else
  Ok (if c =? 63 then 63 else if c =? 7 then 97 else if c =? 8 then 98
      else if c =? 12 then 102 else if c =? 13 then 114 else if c =? 11 then 118 else 0).

(** src/escape_sequence.c:96-128 (character_to_escape_sequence): the bytes put
    in [output] before its NUL. *)
Definition octal_escape (b : Z) : list Z :=
  [92; (b / 8 / 8) mod 8 + 48; (b / 8) mod 8 + 48; b mod 8 + 48].
Definition character_to_escape_sequence (b : Z) (allow_complicated : bool) : res (list Z) :=
  let ch := schar b in
  if ch =? 34 then Ok [92; 34]
  else if ch =? 39 then Ok [39]
  else
    let* plain := (if 0 <=? ch then needs_no_escape ch else Ok false) in
    if plain then Ok [b] else
    let* simple := (if 0 <=? ch then has_simple_escape ch else Ok 0) in
    if negb (simple =? 0) then Ok [92; simple] else
    let* compl := (if allow_complicated && (0 <=? ch) then has_complicated_escape ch else Ok 0) in
    if negb (compl =? 0) then Ok [92; compl] else
    Ok (octal_escape b).

(** Escaping every byte of a string, as in src/assembler/assembler.c:113-119
    (asm_string, text output, without the quotes) and, with
    [allow_complicated = true], src/preprocessor/macro_expander.c:195-200. *)
Fixpoint escape_all (allow : bool) (l : list Z) : res (list Z) :=
  match l with
  | [] => Ok []
  | b :: t =>
      let* e := character_to_escape_sequence b allow in
      let* r := escape_all allow t in
      Ok (e ++ r)
  end.

(** src/preprocessor/string_concat.c:22-24. *)
Inductive string_type := STRING_DEFAULT | STRING_U_SMALL | STRING_U_LARGE | STRING_L | STRING_U8.

(** src/preprocessor/string_concat.c:76-93: bytes written for a character. *)
Definition char_bytes (type : string_type) (ch : Z) : list Z :=
  match type with
  | STRING_DEFAULT | STRING_U8 => [ch mod 256]
  | STRING_L | STRING_U_LARGE =>
      [Z.land ch 255; Z.land (Z.shiftr ch 8) 255; Z.land (Z.shiftr ch 16) 255; Z.land (Z.shiftr ch 24) 255]
  | STRING_U_SMALL => [Z.land ch 255; Z.land (Z.shiftr ch 8) 255]
  end.

(** src/preprocessor/string_concat.c:56-96 (escape_char_to_buffer). [s] is the
    memory from input->str on, [len] is input->len. Returns [None] for
    "return 0", otherwise the bytes written and the advance. The take_utf8 call
    (46-54) uses utf8_decode. Plain characters of an ordinary string are the
    char converted to uint32_t, of which only the low 8 bits are kept. *)
Definition escape_char_to_buffer (s : list Z) (len : nat) (end_char : Z) (type : string_type)
  : res (option (list Z * nat)) :=
  match len with
  | O => Ok None
  | _ =>
    let* c0 := get s 0 in
    if c0 =? end_char then Ok None else
    let* e := escape_sequence_read s len in
    match e with
    | Some (v, adv) => Ok (Some (char_bytes type v, adv))
    | None =>
        match type with
        | STRING_DEFAULT | STRING_U8 => Ok (Some (char_bytes type c0, 1%nat))
        | _ => let* d := utf8_decode s in Ok (Some (char_bytes type (fst d), snd d))
        end
    end
  end.

(** src/preprocessor/string_concat.c:116-131 (escape_string_to_buffer): the
    bytes appended to the buffer. [fuel] bounds the while loop; running out of
    it is impossible when fuel > len (each iteration advances), and is reported
    as [Fail]. sv_tail can make len negative (int): then the loop continues in C
    while the model reports [Undef]. *)
Fixpoint escape_loop (fuel : nat) (s : list Z) (len : nat) (end_char : Z) (type : string_type)
  : res (list Z * list Z * nat) :=
  match fuel with
  | O => Fail
  | S f =>
      let* r := escape_char_to_buffer s len end_char type in
      match r with
      | None => Ok ([], s, len)
      | Some (out, adv) =>
          if (len <? adv)%nat then Undef else
          let* q := escape_loop f (skipn adv s) (len - adv) end_char type in
          let '(rest, s', len') := q in
          Ok (out ++ rest, s', len')
      end
  end.
Definition escape_string_to_buffer (input : list Z) (len : nat) (type : string_type) : res (list Z) :=
  match len with
  | O => Fail
  | S l =>
    let* c0 := get input 0 in
    let end_char := if c0 =? 60 then 62 else c0 in
    let* q := escape_loop (S len) (skipn 1 input) l end_char type in
    let '(out, s', len') := q in
    match len' with
    | O => Fail
    | _ => let* e := get s' 0 in if e =? end_char then Ok out else Fail
    end
  end.

(** src/assembler/assembler.c:108-121 (asm_string). Binary output appends the
    bytes and a NUL; text output emits a .string directive whose operand is the
    escaped text between quotes. *)
Definition asm_string_binary (str : list Z) : list Z := str ++ [0].
Definition asm_string_text (str : list Z) : res (list Z) :=
  let* e := escape_all false str in
  Ok (chars "	.string """ ++ e ++ chars """" ++ [10]).
