(** Token types and spellings (src/preprocessor/tokens.h), transcribed from the
    enumeration of src/preprocessor/preprocessor.h:14-23: X, KEY and SYM entries in file order. *)
From Verif Require Import Base CharTypes.
From Coq Require Import String.
Local Open Scope string_scope.

Definition T_NONE : Z := 0.
Definition PP_HEADER_NAME_H : Z := 1.
Definition PP_HEADER_NAME_Q : Z := 2.
Definition PP_HASH : Z := 3.
Definition PP_HHASH : Z := 4.
Definition PP_DIRECTIVE : Z := 5.
Definition COND_IF : Z := 6.
Definition COND_IF_TRUE : Z := 7.
Definition COND_IF_FALSE : Z := 8.
Definition COND_ENDIF : Z := 9.
Definition T_IDENT : Z := 10.
Definition T_STRING : Z := 11.
Definition T_STRING_CHAR32 : Z := 12.
Definition T_STRING_CHAR16 : Z := 13.
Definition T_STRING_WCHAR : Z := 14.
Definition T_CHARACTER_CONSTANT : Z := 15.
Definition T_CHARACTER_CONSTANT_CHAR32 : Z := 16.
Definition T_CHARACTER_CONSTANT_CHAR16 : Z := 17.
Definition T_CHARACTER_CONSTANT_WCHAR : Z := 18.
Definition T_NUM : Z := 19.
Definition T_KAUTO : Z := 20.
Definition T_KCONST : Z := 21.
Definition T_KDOUBLE : Z := 22.
Definition T_KFLOAT : Z := 23.
Definition T_KINT : Z := 24.
Definition T_KSHORT : Z := 25.
Definition T_KBOOL : Z := 26.
Definition T_KCOMPLEX : Z := 27.
Definition T_KSTRUCT : Z := 28.
Definition T_KUNSIGNED : Z := 29.
Definition T_KBREAK : Z := 30.
Definition T_KCONTINUE : Z := 31.
Definition T_KELSE : Z := 32.
Definition T_KFOR : Z := 33.
Definition T_KLONG : Z := 34.
Definition T_KSIGNED : Z := 35.
Definition T_KSWITCH : Z := 36.
Definition T_KVOID : Z := 37.
Definition T_KCASE : Z := 38.
Definition T_KDEFAULT : Z := 39.
Definition T_KENUM : Z := 40.
Definition T_KGOTO : Z := 41.
Definition T_KREGISTER : Z := 42.
Definition T_KSIZEOF : Z := 43.
Definition T_KTYPEDEF : Z := 44.
Definition T_KVOLATILE : Z := 45.
Definition T_KCHAR : Z := 46.
Definition T_KDO : Z := 47.
Definition T_KEXTERN : Z := 48.
Definition T_KIF : Z := 49.
Definition T_KRETURN : Z := 50.
Definition T_KSTATIC : Z := 51.
Definition T_KTHREAD_LOCAL : Z := 52.
Definition T_KATOMIC : Z := 53.
Definition T_KRESTRICT : Z := 54.
Definition T_KUNION : Z := 55.
Definition T_KWHILE : Z := 56.
Definition T_KNORETURN : Z := 57.
Definition T_KINLINE : Z := 58.
Definition T_KALIGNAS : Z := 59.
Definition T_KALIGNOF : Z := 60.
Definition T_KSTATIC_ASSERT : Z := 61.
Definition T_KGENERIC : Z := 62.
Definition T_KVA_START : Z := 63.
Definition T_KVA_END : Z := 64.
Definition T_KVA_ARG : Z := 65.
Definition T_KVA_COPY : Z := 66.
Definition T_KOFFSETOF : Z := 67.
Definition T_KFUNC : Z := 68.
Definition T_KATTRIBUTE : Z := 69.
Definition T_LSHIFTA : Z := 70.
Definition T_RSHIFTA : Z := 71.
Definition T_ELLIPSIS : Z := 72.
Definition T_GEQ : Z := 73.
Definition T_LEQ : Z := 74.
Definition T_EQ : Z := 75.
Definition T_NEQ : Z := 76.
Definition T_BANDA : Z := 77.
Definition T_XORA : Z := 78.
Definition T_BORA : Z := 79.
Definition T_ADDA : Z := 80.
Definition T_SUBA : Z := 81.
Definition T_MULA : Z := 82.
Definition T_DIVA : Z := 83.
Definition T_MODA : Z := 84.
Definition T_LSHIFT : Z := 85.
Definition T_RSHIFT : Z := 86.
Definition T_AND : Z := 87.
Definition T_OR : Z := 88.
Definition T_INC : Z := 89.
Definition T_DEC : Z := 90.
Definition T_ARROW : Z := 91.
Definition T_ADD : Z := 92.
Definition T_SUB : Z := 93.
Definition T_DIV : Z := 94.
Definition T_MOD : Z := 95.
Definition T_G : Z := 96.
Definition T_L : Z := 97.
Definition T_NOT : Z := 98.
Definition T_BOR : Z := 99.
Definition T_XOR : Z := 100.
Definition T_BNOT : Z := 101.
Definition T_A : Z := 102.
Definition T_STAR : Z := 103.
Definition T_DOT : Z := 104.
Definition T_AMP : Z := 105.
Definition T_QUEST : Z := 106.
Definition T_COLON : Z := 107.
Definition T_SEMI_COLON : Z := 108.
Definition T_LPAR : Z := 109.
Definition T_RPAR : Z := 110.
Definition T_LBRACK : Z := 111.
Definition T_RBRACK : Z := 112.
Definition T_COMMA : Z := 113.
Definition T_LBRACE : Z := 114.
Definition T_RBRACE : Z := 115.
Definition T_EOI : Z := 116.

(** The SYM entries: punctuators with their spelling. *)
Definition symbols : list (Z * list Z) := [
  (T_LSHIFTA, chars "<<=");
  (T_RSHIFTA, chars ">>=");
  (T_ELLIPSIS, chars "...");
  (T_GEQ, chars ">=");
  (T_LEQ, chars "<=");
  (T_EQ, chars "==");
  (T_NEQ, chars "!=");
  (T_BANDA, chars "&=");
  (T_XORA, chars "^=");
  (T_BORA, chars "|=");
  (T_ADDA, chars "+=");
  (T_SUBA, chars "-=");
  (T_MULA, chars "*=");
  (T_DIVA, chars "/=");
  (T_MODA, chars "%=");
  (T_LSHIFT, chars "<<");
  (T_RSHIFT, chars ">>");
  (T_AND, chars "&&");
  (T_OR, chars "||");
  (T_INC, chars "++");
  (T_DEC, chars "--");
  (T_ARROW, chars "->");
  (T_ADD, chars "+");
  (T_SUB, chars "-");
  (T_DIV, chars "/");
  (T_MOD, chars "%");
  (T_G, chars ">");
  (T_L, chars "<");
  (T_NOT, chars "!");
  (T_BOR, chars "|");
  (T_XOR, chars "^");
  (T_BNOT, chars "~");
  (T_A, chars "=");
  (T_STAR, chars "*");
  (T_DOT, chars ".");
  (T_AMP, chars "&");
  (T_QUEST, chars "?");
  (T_COLON, chars ":");
  (T_SEMI_COLON, chars ";");
  (T_LPAR, chars "(");
  (T_RPAR, chars ")");
  (T_LBRACK, chars "[");
  (T_RBRACK, chars "]");
  (T_COMMA, chars ",");
  (T_LBRACE, chars "{");
  (T_RBRACE, chars "}")].
(** The KEY entries: keywords with their spelling. *)
Definition keywords : list (Z * list Z) := [
  (T_KAUTO, chars "auto");
  (T_KCONST, chars "const");
  (T_KDOUBLE, chars "double");
  (T_KFLOAT, chars "float");
  (T_KINT, chars "int");
  (T_KSHORT, chars "short");
  (T_KBOOL, chars "_Bool");
  (T_KCOMPLEX, chars "_Complex");
  (T_KSTRUCT, chars "struct");
  (T_KUNSIGNED, chars "unsigned");
  (T_KBREAK, chars "break");
  (T_KCONTINUE, chars "continue");
  (T_KELSE, chars "else");
  (T_KFOR, chars "for");
  (T_KLONG, chars "long");
  (T_KSIGNED, chars "signed");
  (T_KSWITCH, chars "switch");
  (T_KVOID, chars "void");
  (T_KCASE, chars "case");
  (T_KDEFAULT, chars "default");
  (T_KENUM, chars "enum");
  (T_KGOTO, chars "goto");
  (T_KREGISTER, chars "register");
  (T_KSIZEOF, chars "sizeof");
  (T_KTYPEDEF, chars "typedef");
  (T_KVOLATILE, chars "volatile");
  (T_KCHAR, chars "char");
  (T_KDO, chars "do");
  (T_KEXTERN, chars "extern");
  (T_KIF, chars "if");
  (T_KRETURN, chars "return");
  (T_KSTATIC, chars "static");
  (T_KTHREAD_LOCAL, chars "_Thread_local");
  (T_KATOMIC, chars "_Atomic");
  (T_KRESTRICT, chars "restrict");
  (T_KUNION, chars "union");
  (T_KWHILE, chars "while");
  (T_KNORETURN, chars "_Noreturn");
  (T_KINLINE, chars "inline");
  (T_KALIGNAS, chars "_Alignas");
  (T_KALIGNOF, chars "_Alignof");
  (T_KSTATIC_ASSERT, chars "_Static_assert");
  (T_KGENERIC, chars "_Generic");
  (T_KVA_START, chars "__builtin_va_start");
  (T_KVA_END, chars "__builtin_va_end");
  (T_KVA_ARG, chars "__builtin_va_arg");
  (T_KVA_COPY, chars "__builtin_va_copy");
  (T_KOFFSETOF, chars "__builtin_offsetof");
  (T_KFUNC, chars "__func__");
  (T_KATTRIBUTE, chars "__attribute__")].
