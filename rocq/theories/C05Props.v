(** C05: escape sequences in assembly text. *)
From Coq Require Import String.
From Verif Require Import Base CharTypes Escape EscapeSpec EscapeProofs.

(** Every string without a DEL byte: the emitted .string line assembles (under
    an independent reader of GNU as strings) to exactly the bytes the binary
    back end would have written. *)
Theorem C05_string_line_partial :
  forall str, Forall (fun b => 0 <= b < 256) str -> ~ In 127 str ->
  exists line, asm_string_text str = Ok line /\ gas_string_line line = Some (str ++ [0]).
Proof. exact string_line. Qed.
Print Assumptions C05_string_line_partial.

(** Missing: the byte 127, for which the printer indexes its tables out of bounds. *)
Theorem C05_del_refuted :
  exists str, Forall (fun b => 0 <= b < 256) str /\ asm_string_text str = Undef.
Proof. exists [127]. split; [repeat constructor; lia|reflexivity]. Qed.
Print Assumptions C05_del_refuted.

Example C05_nontrivial : let str := [0; 49; 34; 92; 10; 255; 39; 63; 65; 7] in
  Forall (fun b => 0 <= b < 256) str /\ ~ In 127 str
  /\ asm_string_text str = Ok (chars "	.string ""\0001\""\\\n\377'\077A\007""" ++ [10]).
Proof. split; [repeat constructor; lia|split; [cbn; intuition lia|reflexivity]]. Qed.
