(** Model of src/utf8.c. Bytes are 0..255. *)
From Verif Require Import Base.

(** [byte_not m] is the int value ~m for a byte-sized mask m (src/utf8.c uses
    ~0xE0 etc. on int, i.e. all higher bits set). *)
Definition byte_not (m : Z) : Z := Z.lnot m.

(** conversion of an int to char when stored in [output] *)
Definition to_char (v : Z) : Z := v mod 256.

(** src/utf8.c:7-27 (utf8_encode). [codepoint] is a uint32_t. *)
Definition utf8_encode (cp : Z) : res (list Z) :=
  if cp <=? 127 then Ok [to_char (Z.land cp 255); 0; 0; 0]
  else if cp <=? 2047 then
    Ok [to_char (Z.lor 192 (Z.land (Z.shiftr cp (6 * 1)) (byte_not 224)));
        to_char (Z.lor 128 (Z.land (Z.shiftr cp (6 * 0)) (byte_not 192))); 0; 0]
  else if cp <=? 65535 then
    Ok [to_char (Z.lor 224 (Z.land (Z.shiftr cp (6 * 2)) (byte_not 240)));
        to_char (Z.lor 128 (Z.land (Z.shiftr cp (6 * 1)) (byte_not 192)));
        to_char (Z.lor 128 (Z.land (Z.shiftr cp (6 * 0)) (byte_not 192))); 0]
  else if cp <=? 1114111 then
    Ok [to_char (Z.lor 240 (Z.land (Z.shiftr cp (6 * 3)) (byte_not 248)));
        to_char (Z.lor 128 (Z.land (Z.shiftr cp (6 * 2)) (byte_not 192)));
        to_char (Z.lor 128 (Z.land (Z.shiftr cp (6 * 1)) (byte_not 192)));
        to_char (Z.lor 128 (Z.land (Z.shiftr cp (6 * 0)) (byte_not 192)))]
  else Fail.

(** src/utf8.c:29-41 (utf8_code_point_length). *)
Definition utf8_code_point_length (s : Z) : res nat :=
  if Z.land s 128 =? 0 then Ok 1%nat
  else if Z.land s 224 =? 192 then Ok 2%nat
  else if Z.land s 240 =? 224 then Ok 3%nat
  else if Z.land s 248 =? 240 then Ok 4%nat
  else Fail.

(** src/utf8.c:43-72 (utf8_decode): [s] is the memory from *start on; returns
    the code point and the advance. *)
Definition utf8_decode (s : list Z) : res (Z * nat) :=
  let* s0 := get s 0 in
  if Z.land s0 128 =? 0 then
    Ok (Z.shiftl (Z.land s0 (byte_not 128)) (6 * 0), 1%nat)
  else if Z.land s0 224 =? 192 then
    let* s1 := get s 1 in
    Ok (Z.lor (Z.shiftl (Z.land s0 (byte_not 224)) (6 * 1))
              (Z.shiftl (Z.land s1 (byte_not 192)) (6 * 0)), 2%nat)
  else if Z.land s0 240 =? 224 then
    let* s1 := get s 1 in
    let* s2 := get s 2 in
    Ok (Z.lor (Z.lor (Z.shiftl (Z.land s0 (byte_not 224)) (6 * 2))
                     (Z.shiftl (Z.land s1 (byte_not 192)) (6 * 1)))
              (Z.shiftl (Z.land s2 (byte_not 192)) (6 * 0)), 3%nat)
  else if Z.land s0 248 =? 240 then
    let* s1 := get s 1 in
    let* s2 := get s 2 in
    let* s3 := get s 3 in
    Ok (Z.lor (Z.lor (Z.lor (Z.shiftl (Z.land s0 (byte_not 248)) (6 * 3))
                            (Z.shiftl (Z.land s1 (byte_not 192)) (6 * 2)))
                     (Z.shiftl (Z.land s2 (byte_not 192)) (6 * 1)))
              (Z.shiftl (Z.land s3 (byte_not 192)) (6 * 0)), 4%nat)
  else Fail.
