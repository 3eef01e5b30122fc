(** C79: the ## operator. *)
From Coq Require Import String.
From Verif Require Import Base CharTypes Tokens MacroTable StringSet Fuel Expander ExpanderSpec ExpanderProofs CallProofs TokenizerSpec ScanProofs PasteSpec PasteProofs PasteCall.
Local Open Scope Z_scope.
Local Open Scope list_scope.

(** Two identifiers or numbers, or two punctuators, whose spellings together are one
    token: [left ## right] is this token. (The operands of [glue] are swapped.) *)
Theorem paste_yields_the_token_partial left right t :
  pasted (obs left) (obs right) t -> alike (obs left) (obs right) -> exists g, glue right left = Ok g /\ obs g = t.
Proof. apply paste_complete. Qed.
Print Assumptions paste_yields_the_token_partial.

(** Whatever is accepted is one token with the concatenated spelling, except for a number
    after an identifier that has a character an identifier has not, and an identifier
    after a number that has one a number has not. *)
Theorem paste_yields_tokens_partial left right g : glue right left = Ok g -> one_token (obs left) -> one_token (obs right) ->
  (e_type left = T_IDENT -> e_type right = T_NUM -> Forall id_char (e_str right)) ->
  (e_type left = T_NUM -> e_type right = T_IDENT -> Forall plain_char (e_str right)) ->
  pasted (obs left) (obs right) (obs g).
Proof. intros G A B H1 H2. exact (proj1 (paste_sound left right g G A B H1 H2)). Qed.
Print Assumptions paste_yields_tokens_partial.

(** A call of a function-like macro whose replacement list has ## in it, anywhere and any
    number of times. The replacement list is [concat bodies], each of the [bodies] being
    operands joined by ##; [outs] is what C says each of them stands for. Among tokens
    that are no macro names the call is replaced by exactly these. *)
Theorem paste_in_calls_partial :
  forall lk path s before after name lpar rpar comma args d groups bodies outs,
  lk (e_str name) = Some d -> d_func d = true -> d_vararg d = false ->
  e_type name = T_IDENT -> e_hs name = [] -> e_str name <> chars "__LINE__" -> e_str name <> chars "__FILE__" ->
  e_type lpar = T_LPAR -> e_type rpar = T_RPAR -> e_type comma = T_COMMA ->
  length args = length (d_par d) ->
  Forall (fun a => argument 0 (map obs a) /\ Forall (fun t => inert lk (obs t)) a) args ->
  d_def d = concat bodies -> Forall2 (glued (fun t => k_type t = PP_HHASH)) groups bodies ->
  Forall (Forall (fun t => operator_free (mobs t))) groups ->
  Forall2 (fun g out => joined (map (fun t => value (map k_str (d_par d)) (map (map obs) args) (mobs t)) g) out) groups outs ->
  Forall (inert lk) (concat outs) -> Forall (fun t => inert lk (obs t)) (before ++ after) ->
  (** what is left out: an empty argument as first of several operands *)
  Forall (fun g => match g with t :: _ :: _ => value (map k_str (d_par d)) (map (map obs) args) (mobs t) <> [] | _ => True end) groups ->
  exists fuel0, forall fuel, (fuel0 <= fuel)%nat ->
  exists out,
    expand_token_list fuel lk path (before ++ name :: lpar :: join comma args ++ rpar :: after) s = Some (Ok (out, s)) /\
    map obs out = map obs before ++ concat outs ++ map obs after.
Proof.
  intros lk path s before after name lpar rpar comma args d groups bodies outs EL HD HV EN EH N1 N2 ELp ERp EC HLen HA EB HG HO HJ HI HF HE.
  apply Forall_app in HF. destruct HF as [HIb HIa].
  set (big := S (list_sum (map (@length etok) args))).
  assert (HBig : forall a, In a args -> (length a < big)%nat).
  { intros a Ha. unfold big. clear -Ha. induction args as [|b l IH]; [contradiction|]. unfold list_sum in *. cbn [map fold_right]. destruct Ha as [->|Ha]; [lia|]. specialize (IH Ha). lia. }
  exists (length before + S (length (concat outs) + (big + (length after + 1))))%nat. intros fuel Hf.
  set (k := (fuel - length before - 1 - length (concat outs) - length after)%nat).
  destruct (paste_step lk path (length (concat outs) + (length after + k)) (length after + k) ([] ++ before) name d false comma lpar rpar args
     (after ++ eoi_token :: ib s) (feed s) groups bodies outs) as (L & EO & ES); auto.
  - rewrite EH. auto.
  - intros a Ha. specialize (HBig a Ha). unfold k. lia.
  - exists (before ++ L ++ after). split.
    + unfold expand_token_list, push_all, push. cbn [ib feed]. rewrite <- !app_assoc. cbn [app].
      replace (join comma args ++ rpar :: after) with (join comma args ++ (rpar :: after)) by reflexivity.
      rewrite <- app_assoc. cbn [app].
      replace fuel with (length before + S (length (concat outs) + (length after + k)))%nat by (unfold k; lia).
      rewrite inert_buffer by auto. rewrite ES. rewrite inert_buffer by auto.
      replace k with (S (k - 1)) by (unfold k; lia). cbn [expand_buffer ib length Nat.eqb orb negb]. unfold take. cbn [ib exbind feed eoi_token e_type].
      change (T_EOI =? T_EOI) with true. cbn iota. rewrite <- !app_assoc. cbn [app]. destruct s; reflexivity.
    + rewrite !map_app, EO. reflexivity.
Qed.
Print Assumptions paste_in_calls_partial.

(** ** What is not as C says *)
Definition C79_e (ty : Z) (x : list Z) : etok := {| e_type := ty; e_str := x; e_ws := false; e_wsa := false; e_line := 0; e_hs := [] |}.
Lemma C79_word c w : id_start c -> Forall id_char w -> one_token (T_IDENT, c :: w).
Proof. apply one_ident. Qed.
Lemma C79_dot : one_token (T_DOT, chars ".").
Proof.
  split; [|split; discriminate]. cbn [fst snd]. apply lx_punct.
  - apply punct_in. vm_compute. tauto.
  - intros k' x' _ (z & E). rewrite app_nil_r in E. rewrite E, app_length. lia.
  - intros (z & E). discriminate.
  - intros (z & E). discriminate.
  - intros (_ & D). unfold digit, ahead in D. cbn in D. lia.
Qed.
Lemma C79_number d w : digit d -> pp_rest w -> one_token (T_NUM, d :: w).
Proof. intros D W. apply (one_num [d]); [exists d; split; auto|exact W]. Qed.

(** Some pairs that make one token are rejected: . ## 5, 1 ## ., and L before a string. *)
Theorem paste_is_refused_refuted :
  pasted (T_DOT, chars ".") (T_NUM, chars "5") (T_NUM, chars ".5") /\ glue (C79_e T_NUM (chars "5")) (C79_e T_DOT (chars ".")) = Fail /\
  pasted (T_NUM, chars "1") (T_DOT, chars ".") (T_NUM, chars "1.") /\ glue (C79_e T_DOT (chars ".")) (C79_e T_NUM (chars "1")) = Fail /\
  pasted (T_IDENT, chars "L") (T_STRING, chars """a""") (T_STRING, chars "L""a""") /\ glue (C79_e T_STRING (chars """a""")) (C79_e T_IDENT (chars "L")) = Fail.
Proof.
  assert (D5 : digit 53) by (unfold digit; lia). assert (D1 : digit 49) by (unfold digit; lia).
  assert (QA : quoted 34 [97]) by (apply q_char; try discriminate; constructor).
  split; [|split; [reflexivity|split; [|split; [reflexivity|split; [|reflexivity]]]]].
  - split; [exact C79_dot|]. split; [exact (C79_number 53 [] D5 pp_end)|]. split; [reflexivity|]. apply (one_num [46; 53] []); [exists 53; auto|constructor].
  - split; [exact (C79_number 49 [] D1 pp_end)|]. split; [exact C79_dot|]. split; [reflexivity|]. apply (one_num [49] [46]); [exists 49; auto|]. apply pp_char; [auto|constructor].
  - split; [|split; [|split; [reflexivity|]]].
    + apply (C79_word 76 []); [left; left; lia|constructor].
    + split; [|split; discriminate]. apply (lx_string [] [97] []); [cbn; auto|exact QA].
    + split; [|split; discriminate]. apply (lx_string (chars "L") [97] []); [cbn; tauto|exact QA].
Qed.
Print Assumptions paste_is_refused_refuted.

(** x ## 1.5 is accepted, as an identifier with a dot. *)
Theorem paste_makes_no_token_refuted :
  one_token (T_IDENT, chars "x") /\ one_token (T_NUM, chars "1.5") /\
  (exists g, glue (C79_e T_NUM (chars "1.5")) (C79_e T_IDENT (chars "x")) = Ok g /\ obs g = (T_IDENT, chars "x1.5")) /\ ~ one_token (T_IDENT, chars "x1.5").
Proof.
  assert (D5 : digit 53) by (unfold digit; lia). assert (D1 : digit 49) by (unfold digit; lia). split; [|split; [|split]].
  - apply (C79_word 120 []); [left; right; left; lia|constructor].
  - apply (C79_number 49 [46; 53] D1). apply pp_char; [auto|]. apply pp_char; [auto|constructor].
  - eexists. split; reflexivity.
  - intros (L & _). cbn [fst snd] in L. destruct (ident_shape _ _ L) as (c & w & E & _ & W). injection E as <- <-.
    apply Forall_inv_tail in W. apply Forall_inv in W. unfold id_char, id_start, nondigit, digit in W. lia.
Qed.
Print Assumptions paste_makes_no_token_refuted.

(** #define F(a,b) x a ## b : F(,y) is x y, but becomes xy. *)
Definition C79_t (ty : Z) (x : string) : mtoken := {| k_type := ty; k_str := chars x; k_ws := false; k_ws_after := false |}.
Definition C79_F := {| d_name := chars "F"; d_func := true; d_vararg := false; d_par := [C79_t T_IDENT "a"; C79_t T_IDENT "b"];
  d_def := [C79_t T_IDENT "x"; C79_t T_IDENT "a"; C79_t PP_HHASH "##"; C79_t T_IDENT "b"] |}.
Definition C79_lk (d : define) (n : list Z) : option define := if sv_cmp n (d_name d) then Some d else None.
Definition C79_call (d : define) (args : list (list etok)) : list etok :=
  C79_e T_IDENT (d_name d) :: C79_e T_LPAR (chars "(") :: join (C79_e T_COMMA (chars ",")) args ++ [C79_e T_RPAR (chars ")")].
Theorem empty_operand_refuted :
  let args := [[]; [C79_e T_IDENT (chars "y")]] in
  let groups := [[C79_t T_IDENT "x"]; [C79_t T_IDENT "a"; C79_t T_IDENT "b"]] in
  Forall2 (glued (fun t => k_type t = PP_HHASH)) groups [[C79_t T_IDENT "x"]; [C79_t T_IDENT "a"; C79_t PP_HHASH "##"; C79_t T_IDENT "b"]] /\
  Forall2 (fun g out => joined (map (fun t => value (map k_str (d_par C79_F)) (map (map obs) args) (mobs t)) g) out) groups
    [[(T_IDENT, chars "x")]; [(T_IDENT, chars "y")]] /\
  exists out s, expand_token_list 20 (C79_lk C79_F) [] (C79_call C79_F args) {| ib := []; feed := [] |} = Some (Ok (out, s)) /\ map obs out = [(T_IDENT, chars "xy")].
Proof.
  cbv zeta. split; [|split].
  - repeat constructor.
  - constructor; [|constructor; [|constructor]].
    + apply j_one.
    + apply (j_empty [[(T_IDENT, chars "y")]]). apply j_one.
  - eexists _, _. split; vm_compute; reflexivity.
Qed.
Print Assumptions empty_operand_refuted.

(** ** Cases *)
(** #define G(a,b) a ## _ ## b [ < ## < ## = ] b : G(p q, r s) is p q_r s [ <<= ] r s. *)
Definition C79_body1 := [C79_t T_IDENT "a"; C79_t PP_HHASH "##"; C79_t T_IDENT "_"; C79_t PP_HHASH "##"; C79_t T_IDENT "b"].
Definition C79_body2 := [C79_t T_L "<"; C79_t PP_HHASH "##"; C79_t T_L "<"; C79_t PP_HHASH "##"; C79_t T_A "="].
Definition C79_bodies := [C79_body1; [C79_t T_LBRACK "["]; C79_body2; [C79_t T_RBRACK "]"]; [C79_t T_IDENT "b"]].
Definition C79_groups := [[C79_t T_IDENT "a"; C79_t T_IDENT "_"; C79_t T_IDENT "b"]; [C79_t T_LBRACK "["]; [C79_t T_L "<"; C79_t T_L "<"; C79_t T_A "="]; [C79_t T_RBRACK "]"]; [C79_t T_IDENT "b"]].
Definition C79_G := {| d_name := chars "G"; d_func := true; d_vararg := false; d_par := [C79_t T_IDENT "a"; C79_t T_IDENT "b"]; d_def := concat C79_bodies |}.
Definition C79_id (x : string) := C79_e T_IDENT (chars x).
Definition C79_args := [[C79_id "p"; C79_id "q"]; [C79_id "r"; C79_id "s"]].
Definition C79_outs : list (list token) := [[(T_IDENT, chars "p"); (T_IDENT, chars "q_r"); (T_IDENT, chars "s")]; [(T_LBRACK, chars "[")]; [(T_LSHIFTA, chars "<<=")]; [(T_RBRACK, chars "]")]; [(T_IDENT, chars "r"); (T_IDENT, chars "s")]].
Lemma C79_letters c w : id_start c -> Forall id_char w -> one_token (T_IDENT, c :: w).
Proof. apply one_ident. Qed.
Lemma C79_punct k x : In (k, x) [(T_L, chars "<"); (T_A, chars "="); (T_LEQ, chars "<="); (T_LSHIFTA, chars "<<=")] -> one_token (k, x).
Proof.
  intros I. assert (P : punctuator k x) by (apply punct_in; cbn in I; repeat (destruct I as [I|I]; [injection I as <- <-; vm_compute; tauto|]); destruct I).
  split; [|split; cbn [fst]; cbn in I; repeat (destruct I as [I|I]; [injection I as <- <-; discriminate|]); destruct I]. cbn [fst snd]. apply lx_punct; [exact P| | | |].
  - intros k' x' _ (z & E). rewrite app_nil_r in E. rewrite E, app_length. lia.
  - intros (z & E). cbn in I. repeat (destruct I as [I|I]; [injection I as <- <-; discriminate|]). destruct I.
  - intros (z & E). cbn in I. repeat (destruct I as [I|I]; [injection I as <- <-; discriminate|]). destruct I.
  - intros (_ & D). unfold digit, ahead in D. cbn in D. lia.
Qed.
Example C79_hypotheses :
  Forall2 (glued (fun t => k_type t = PP_HHASH)) C79_groups C79_bodies /\ Forall (Forall (fun t => operator_free (mobs t))) C79_groups /\
  Forall2 (fun g out => joined (map (fun t => value (map k_str (d_par C79_G)) (map (map obs) C79_args) (mobs t)) g) out) C79_groups C79_outs /\
  Forall (fun a => argument 0 (map obs a)) C79_args /\
  Forall (fun g => match g with t :: _ :: _ => value (map k_str (d_par C79_G)) (map (map obs) C79_args) (mobs t) <> [] | _ => True end) C79_groups.
Proof.
  assert (Lt : forall c, 97 <= c <= 122 -> id_start c) by (intros; left; right; left; lia). assert (U : id_start 95) by (left; right; right; left; reflexivity).
  split; [|split; [|split; [|split]]].
  - repeat constructor.
  - repeat constructor; discriminate.
  - unfold C79_groups, C79_outs. repeat (apply Forall2_cons); [| apply j_one | | apply j_one | apply j_one | apply Forall2_nil].
    + apply (j_paste [(T_IDENT, chars "p")] (T_IDENT, chars "q") _ (T_IDENT, chars "_r") [(T_IDENT, chars "s")] (T_IDENT, chars "q_r")).
      * apply (j_paste [] (T_IDENT, chars "_") _ (T_IDENT, chars "r") [(T_IDENT, chars "s")] (T_IDENT, chars "_r")); [apply j_one| |left; split; left; reflexivity].
        split; [|split; [|split; [reflexivity|]]]; apply C79_letters; (apply U || (apply Lt; split; vm_compute; discriminate) || apply Forall_nil || (apply Forall_cons; [left; apply Lt; split; vm_compute; discriminate|apply Forall_nil])).
      * split; [|split; [|split; [reflexivity|]]]; apply C79_letters; (apply U || (apply Lt; split; vm_compute; discriminate) || apply Forall_nil || (repeat (apply Forall_cons; [left; apply U || (apply Lt; split; vm_compute; discriminate)|]); apply Forall_nil)).
      * left; split; left; reflexivity.
    + apply (j_paste [] (T_L, chars "<") _ (T_LEQ, chars "<=") [] (T_LSHIFTA, chars "<<=")).
      * apply (j_paste [] (T_L, chars "<") _ (T_A, chars "=") [] (T_LEQ, chars "<=")); [apply j_one| |right; split; apply punct_in; vm_compute; tauto].
        split; [|split; [|split; [reflexivity|]]]; apply C79_punct; cbn; tauto.
      * split; [|split; [|split; [reflexivity|]]]; apply C79_punct; cbn; tauto.
      * right; split; apply punct_in; vm_compute; tauto.
  - repeat constructor; cbn; intros; try discriminate; auto.
  - repeat constructor; discriminate.
Qed.
Example C79_run : exists out s, expand_token_list 40 (C79_lk C79_G) [] (C79_call C79_G C79_args) {| ib := []; feed := [] |} = Some (Ok (out, s)) /\ map obs out = concat C79_outs.
Proof. eexists _, _. split; vm_compute; reflexivity. Qed.
