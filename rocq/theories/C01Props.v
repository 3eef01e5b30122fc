(** C01: little-endian field access (src/common.c:103-163). *)
From Verif Require Import Base Bytes BytesSpec BytesProofs.

(** Writing a field and reading it back gives the value modulo 256^width,
    the bytes written are its little-endian digits, nothing outside the window
    changes. *)
Theorem C01_write_read_roundtrip : forall w buf pos v,
  bytes_ok buf -> (pos + wbytes w <= length buf)%nat ->
  exists buf', write_field w buf pos v = Ok buf'
    /\ length buf' = length buf
    /\ bytes_ok buf'
    /\ le_value (window buf' pos (wbytes w)) = v mod 256 ^ Z.of_nat (wbytes w)
    /\ read_field w buf' pos = Ok (v mod 256 ^ Z.of_nat (wbytes w))
    /\ (forall i, (i < pos \/ pos + wbytes w <= i)%nat -> nth_error buf' i = nth_error buf i).
Proof. exact C01_write_read. Qed.
Print Assumptions C01_write_read_roundtrip.

(** Reading a field and writing the result back changes nothing. *)
Theorem C01_read_write_identity : forall w buf pos,
  bytes_ok buf -> (pos + wbytes w <= length buf)%nat ->
  exists v, read_field w buf pos = Ok v /\ write_field w buf pos v = Ok buf.
Proof. exact C01_read_write. Qed.
Print Assumptions C01_read_write_identity.

(** The file writers append exactly the little-endian digits of the value. *)
Theorem C01_file_write_appends : forall w f v,
  exists l, file_write_field w f v = f ++ l /\ length l = wbytes w /\ bytes_ok l
            /\ le_value l = v mod 256 ^ Z.of_nat (wbytes w).
Proof. exact C01_file. Qed.
Print Assumptions C01_file_write_appends.

Example C01_example :
  bytes_ok [1;2;3;4;5;6] /\ (1 + wbytes W4 <= length [1;2;3;4;5;6])%nat
  /\ write_field W4 [1;2;3;4;5;6] 1 305419896 = Ok [1;120;86;52;18;6]
  /\ read_field W4 [1;120;86;52;18;6] 1 = Ok 305419896.
Proof.
  split; [repeat constructor; unfold is_byte; lia|].
  vm_compute. repeat split; auto.
Qed.

(** Skipping to an offset appends exactly the missing zero bytes, and is refused when the
    file is already longer. *)
Theorem C01_file_skip_pads : forall f target,
  file_write_skip f target = if (length f <=? target)%nat then Ok (f ++ repeat 0 (target - length f)) else Fail.
Proof.
  intros f target. unfold file_write_skip. destruct (length f <=? target)%nat; [|reflexivity]. f_equal.
  generalize (target - length f)%nat. intros n. revert f. induction n as [|n IH]; intros f; cbn [file_write_zero repeat].
  - now rewrite app_nil_r.
  - rewrite IH. unfold file_write_byte. now rewrite <- app_assoc.
Qed.
Print Assumptions C01_file_skip_pads.
Example C01_skip_example : file_write_skip [7; 8] 5 = Ok [7; 8; 0; 0; 0]. Proof. reflexivity. Qed.
