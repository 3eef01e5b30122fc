(** C70: the values an initializer gives to the parts of an object. *)
From Coq Require Import String.
From Verif Require Import Base Fuel CharTypes InitParse InitSpec InitMain.
Local Open Scope Z_scope.
Local Open Scope list_scope.

(** For every object type [t], initializer [i] that C gives a meaning [ws] for
    that type, and text after it: the parser reads exactly the initializer, an
    array of unknown length gets the length C gives it, and the result has the
    value C says for every part of the object, and no value for the parts that
    C leaves zero: whatever braces are left out, in whatever order members and
    elements are designated, through unnamed members, for strings, structs and
    unions as elements.

    Missing from the full property: [strict = true] leaves out lists that go
    on after the last member of an object entered by a designator with several
    levels, a comma after a single value in braces, and values of struct type
    that differ in const; [no_second_list] leaves out a braced list for
    something that has a value already, other members of a union, and parts of
    something given as a whole. Each is refuted below. *)
Theorem C70_initializers_partial : forall wide t i ws rest,
  initializable t -> inits wide true t i ws -> no_second_list t ws -> starts_lbrace rest = false ->
  inits wide false t i ws /\
  exists x f0, (forall f, (f0 <= f)%nat -> parse_initializer wide f t (print i ++ rest) = ok (completed t ws, x, rest)) /\
    forall p v, leaf x p = Some v <-> has_value t ws p v.
Proof.
  intros wide t i ws rest R IN NS SL. split; [apply inits_lenient; exact IN|]. exact (parse_ok wide t i ws rest R IN NS SL).
Qed.
Print Assumptions C70_initializers_partial.

(** ** Refutations *)
Definition nm (s : string) : list Z := chars s.
Definition lit (s : string) : list Z := chars s ++ [0].
Definition pair_type (tag : Z) : ty := Record false tag false [(nm "a", Scalar KInt); (nm "b", Scalar KInt)].
(** struct { struct { int a, b; } s; int c; }. *)
Definition outer : ty := Record false 2 false [(nm "s", pair_type 1); (nm "c", Scalar KInt)].

Ltac unnamed_free :=
  intros name p q P Q;
  inversion P as [? ? ? ? k ? ft NN E|? ? ? ? k ? ft p' E M]; subst; inversion Q as [? ? ? ? k' ? ft' NN' E'|? ? ? ? k' ? ft' p'' E' M']; subst;
  destruct k as [|[|[|k]]]; try discriminate; destruct k' as [|[|[|k']]]; try discriminate; cbn in E, E'; congruence.
Ltac item0 := match goal with |- item _ _ ?t ?p ?i ?q ?u ?ws => apply (item_intro _ _ t p i u [] u ws); [reflexivity| |reflexivity|] end.
Ltac valuehere := apply lands_here; right; exact I.

(** { .s.b = e1, e2 } gives c the value e2, but the parser takes the comma and
    then expects the closing brace: it is rejected, whatever the expressions
    are. *)
Theorem C70_stuck_refuted : forall wide e1 e2 rest,
  let i := Braced [([DMember (nm "s"); DMember (nm "b")], Ex e1); ([], Ex e2)] false in
  let ws := [([], None); ([0%nat; 1%nat], Some (VExpr e1)); ([1%nat], Some (VExpr e2))] in
  initializable outer /\ inits wide false outer i ws /\ no_second_list outer ws /\
  forall f, parse_initializer wide (10 + f) outer (print i ++ rest) = Some Fail.
Proof.
  intros wide e1 e2 rest i ws.
  assert (R : initializable outer).
  { cbn. repeat split; try discriminate; [unnamed_free..]. }
  split; [exact R|]. split; [|split].
  - apply inits_list; [reflexivity|discriminate|intros i' E; discriminate|].
    apply (lists_designated wide false outer [] (Some [0%nat]) _ [0%nat; 1%nat] (Ex e1) [0%nat; 1%nat] (Scalar KInt) [([], Some (VExpr e1))] _ [([1%nat], Some (VExpr e2))]).
    + discriminate.
    + apply (designates_member outer (nm "s") [0%nat] (pair_type 1) _ [1%nat]); [apply member_here with (ft := pair_type 1); [discriminate|reflexivity]|reflexivity|].
      apply (designates_member (pair_type 1) (nm "b") [1%nat] (Scalar KInt) _ []); [apply member_here with (ft := Scalar KInt); [discriminate|reflexivity]|reflexivity|].
      constructor.
    + item0; [valuehere|]. apply inits_value. constructor.
    + apply (lists_next wide false outer _ [1%nat] (Ex e2) [1%nat] (Scalar KInt) [([], Some (VExpr e2))] [] []); [discriminate| |constructor].
      item0; [valuehere|]. apply inits_value. constructor.
  - intros ws1 w ws2 E p v IN O.
    destruct ws1 as [|w1 ws1]; [destruct IN|]. injection E as <- E. destruct IN as [IN|IN]; [discriminate|].
    destruct ws1 as [|w2 ws1]; [destruct IN|]. injection E as <- E. destruct IN as [IN|IN].
    + injection IN as <- <-. destruct ws1 as [|w3 ws1]; injection E as <- E; [discriminate|]. destruct ws1; discriminate.
    + destruct ws1 as [|w3 ws1]; [destruct IN|]. injection E as <- E. destruct ws1; discriminate.
  - intros f. reflexivity.
Qed.
Print Assumptions C70_stuck_refuted.

(** { .s = {e1, e2}, .s = {e3} }: the second list replaces the first, so that b
    is zero; the parser leaves it the value e2. *)
Theorem C70_second_list_refuted : forall wide e1 e2 e3 rest,
  let i := Braced [([DMember (nm "s")], Braced [([], Ex e1); ([], Ex e2)] false); ([DMember (nm "s")], Braced [([], Ex e3)] false)] false in
  let ws := [([], None); ([0%nat], None); ([0%nat; 0%nat], Some (VExpr e1)); ([0%nat; 1%nat], Some (VExpr e2)); ([0%nat], None); ([0%nat; 0%nat], Some (VExpr e3))] in
  inits wide true outer i ws /\ (forall v, ~ has_value outer ws [0%nat; 1%nat] v) /\
  exists x, (forall f, parse_initializer wide (10 + f) outer (print i ++ rest) = ok (outer, x, rest)) /\
    leaf x [0%nat; 1%nat] = Some (VExpr e2).
Proof.
  intros wide e1 e2 e3 rest i ws. split; [|split].
  - assert (D : designates outer [DMember (nm "s")] [0%nat]).
    { apply (designates_member outer (nm "s") [0%nat] (pair_type 1) _ []); [apply member_here with (ft := pair_type 1); [discriminate|reflexivity]|reflexivity|constructor]. }
    apply inits_list; [reflexivity|discriminate|intros i' E; discriminate|].
    apply (lists_designated wide true outer [] (Some [0%nat]) _ [0%nat] _ [0%nat] (pair_type 1)
      [([], None); ([0%nat], Some (VExpr e1)); ([1%nat], Some (VExpr e2))] _ [([0%nat], None); ([0%nat; 0%nat], Some (VExpr e3))]); [discriminate|exact D| |].
    + item0; [apply lands_here; left; exact I|]. apply inits_list; [reflexivity|discriminate|intros i' E; discriminate|].
      apply (lists_next wide true _ [] [0%nat] (Ex e1) [0%nat] (Scalar KInt) [([], Some (VExpr e1))] _ [([1%nat], Some (VExpr e2))]).
      * intros _ (p & k & p' & u & E & _). destruct p; discriminate.
      * item0; [valuehere|]. apply inits_value. constructor.
      * apply (lists_next wide true _ [] [1%nat] (Ex e2) [1%nat] (Scalar KInt) [([], Some (VExpr e2))] _ []).
        -- intros _ (p & k & p' & u & E & _). destruct p; discriminate.
        -- item0; [valuehere|]. apply inits_value. constructor.
        -- constructor.
    + apply (lists_designated wide true outer [0%nat] _ _ [0%nat] _ [0%nat] (pair_type 1)
        [([], None); ([0%nat], Some (VExpr e3))] _ []); [discriminate|exact D| |constructor].
      item0; [apply lands_here; left; exact I|]. apply inits_list; [reflexivity|discriminate|intros i' E; injection E as <-; intros []|].
      apply (lists_next wide true _ [] [0%nat] (Ex e3) [0%nat] (Scalar KInt) [([], Some (VExpr e3))] _ []).
      * intros _ (p & k & p' & u & E & _). destruct p; discriminate.
      * item0; [valuehere|]. apply inits_value. constructor.
      * constructor.
  - intros v (ws1 & ws2 & E & H). unfold ws in E.
    destruct ws1 as [|w1 ws1]; [discriminate|]. injection E as <- E. destruct ws1 as [|w2 ws1]; [discriminate|]. injection E as <- E.
    destruct ws1 as [|w3 ws1]; [discriminate|]. injection E as <- E. destruct ws1 as [|w4 ws1].
    + injection E as <- <-. specialize (H ([0%nat], None) (or_introl eq_refl)). discriminate.
    + injection E as <- E. destruct ws1 as [|w5 ws1]; [discriminate|]. injection E as <- E. destruct ws1 as [|w6 ws1]; [discriminate|].
      injection E as <- E. destruct ws1; discriminate.
  - eexists. split; [intros f; reflexivity|reflexivity].
Qed.
Print Assumptions C70_second_list_refuted.

(** union { int a; long b; } initialized by { .b = e1, .a = e2 } has the value
    e2 in a; the result holds both, and the emission (C40) goes by index, so
    that b is written last. *)
Definition both : ty := Record true 3 false [(nm "a", Scalar KInt); (nm "b", Scalar (KOther 8))].
Theorem C70_union_refuted : forall wide e1 e2 rest,
  let i := Braced [([DMember (nm "b")], Ex e1); ([DMember (nm "a")], Ex e2)] false in
  let ws := [([], None); ([1%nat], Some (VExpr e1)); ([0%nat], Some (VExpr e2))] in
  inits wide true both i ws /\ has_value both ws [0%nat] (VExpr e2) /\ (forall v, ~ has_value both ws [1%nat] v) /\
  (forall f, parse_initializer wide (10 + f) both (print i ++ rest) = ok (both, IBrace [ILeaf (VExpr e2); ILeaf (VExpr e1)], rest)).
Proof.
  intros wide e1 e2 rest i ws. split; [|split; [|split]].
  - apply inits_list; [reflexivity|discriminate|intros i' E; discriminate|].
    apply (lists_designated wide true both [] (Some [0%nat]) _ [1%nat] _ [1%nat] (Scalar (KOther 8)) [([], Some (VExpr e1))] _ [([0%nat], Some (VExpr e2))]); [discriminate| | |].
    + apply (designates_member both (nm "b") [1%nat] (Scalar (KOther 8)) _ []); [apply member_here with (ft := Scalar (KOther 8)); [discriminate|reflexivity]|reflexivity|constructor].
    + item0; [valuehere|]. apply inits_value. constructor.
    + apply (lists_designated wide true both [1%nat] _ _ [0%nat] _ [0%nat] (Scalar KInt) [([], Some (VExpr e2))] _ []); [discriminate| | |constructor].
      * apply (designates_member both (nm "a") [0%nat] (Scalar KInt) _ []); [apply member_here with (ft := Scalar KInt); [discriminate|reflexivity]|reflexivity|constructor].
      * item0; [valuehere|]. apply inits_value. constructor.
  - exists [([], None); ([1%nat], Some (VExpr e1))], []. split; [reflexivity|intros w []].
  - intros v (ws1 & ws2 & E & H). unfold ws in E.
    destruct ws1 as [|w1 ws1]; [discriminate|]. injection E as <- E. destruct ws1 as [|w2 ws1].
    + injection E as <- <-. specialize (H ([0%nat], Some (VExpr e2)) (or_introl eq_refl)). discriminate.
    + injection E as <- E. destruct ws1 as [|w3 ws1]; [discriminate|]. injection E as <- E. destruct ws1; discriminate.
  - intros f. reflexivity.
Qed.
Print Assumptions C70_union_refuted.

(** A comma after a single value: int x = {e,}; is rejected, and
    char s[] = {"...",}; makes an array of one element, initialized by the
    address of the string, whatever the string is. *)
Theorem C70_comma_refuted : forall wide k e s rest,
  inits wide false (Scalar k) (Braced [([], Ex e)] true) [([], Some (VExpr e))] /\
  (forall f, parse_initializer wide (1 + f) (Scalar k) (print (Braced [([], Ex e)] true) ++ rest) = Some Fail) /\
  inits wide false (Open (Scalar KChar)) (Braced [([], Str SPlain s)] true) [([], Some (VStr s))] /\
  completed (Open (Scalar KChar)) [([], Some (VStr s))] = Array (length s) (Scalar KChar) /\
  (forall f, parse_initializer wide (10 + f) (Open (Scalar KChar)) (print (Braced [([], Str SPlain s)] true) ++ rest) =
     ok (Array 1 (Scalar KChar), IBrace [ILeaf (VPtr s)], rest)).
Proof.
  intros wide k e s rest. split; [|split; [|split; [|split]]].
  - apply inits_braced_value; [left; reflexivity|discriminate|constructor].
  - reflexivity.
  - apply inits_braced_value; [right; left; reflexivity|discriminate|constructor; left; reflexivity].
  - reflexivity.
  - reflexivity.
Qed.
Print Assumptions C70_comma_refuted.

(** const struct S x = e, where e is a struct S, or the reverse: the value is
    for the first member. *)
Theorem C70_const_refuted : forall wide union tag const name k fs e rest,
  e_record e = Some (tag, negb const) -> starts_lbrace rest = false ->
  let t := Record union tag const ((name, Scalar k) :: fs) in
  inits wide false t (Ex e) [([], Some (VExpr e))] /\
  exists toks', forall f, match parse_initializer wide (10 + f) t (print (Ex e) ++ TSemi :: rest) with
                          | Some (Ok (_, x, l)) => leaf x [] = None /\ leaf x [0%nat] = Some (VExpr e) /\ l = toks'
                          | _ => False
                          end.
Proof.
  intros wide un tag cn name k fs e rest ER SL t. split.
  - apply inits_value. apply (takes_record wide false un tag cn (negb cn) _ _ ER). discriminate.
  - exists (TSemi :: rest). intros f. unfold parse_initializer, t. cbn [print app Nat.add]. rewrite InitProofs.initializer_S.
    cbn [read_head is_scalar parse_assignment exbind ok is_aggregate andb negb same_type]. rewrite ER, Z.eqb_refl.
    assert (B : Bool.eqb cn (negb cn) = false) by (destruct cn; reflexivity). rewrite B. cbn [andb negb].
    rewrite InitProofs.initializer_S. cbn [read_head exbind ok is_aggregate andb negb starts_lbrace same_type]. rewrite ER, Z.eqb_refl, B. cbn [andb negb].
    destruct un, fs; cbn; repeat split.
Qed.
Print Assumptions C70_const_refuted.

(** ** A case that meets the hypotheses: struct { int a; struct { char s[4]; int
    c; } in[]... } with left-out braces, a string, a designator through two
    levels and the list going on after it. *)
Definition num (n : Z) : expr := {| e_id := n; e_record := None; e_const := Some (Z.to_nat n) |}.
Definition inner : ty := Record false 5 false [(nm "s", Array 4 (Scalar KChar)); (nm "c", Scalar KInt)].
Definition whole : ty := Open inner.
(** { "abc", 1, [2].s = "x", 2, {"y"} } *)
Definition text : ini :=
  Braced [([], Str SPlain (lit "abc")); ([], Ex (num 1)); ([DIndex (num 2); DMember (nm "s")], Str SPlain (lit "x")); ([], Ex (num 2));
          ([], Braced [([], Str SPlain (lit "y"))] false)] true.
Definition steps : list write :=
  [([], None); ([0%nat; 0%nat], Some (VStr (lit "abc"))); ([0%nat; 1%nat], Some (VExpr (num 1))); ([2%nat; 0%nat], Some (VStr (lit "x")));
   ([2%nat; 1%nat], Some (VExpr (num 2))); ([3%nat], None); ([3%nat; 0%nat], Some (VStr (lit "y")))].
Lemma inner_unambiguous : unambiguous inner.
Proof. unnamed_free. Qed.
Example C70_case : initializable whole /\ inits KInt true whole text steps /\ completed whole steps = Array 4 inner.
Proof.
  split; [|split; [|reflexivity]].
  - cbn. repeat split; try discriminate; try lia. exact inner_unambiguous.
  - assert (C : character_type KInt SPlain KChar) by (left; reflexivity).
    assert (NV : forall sk s, ~ is_value_for KInt inner (Str sk s)) by (intros sk s []).
    assert (NG : forall cur, ~ stuck whole [] cur) by (intros cur (p & k & p' & u & E & _); destruct p; discriminate).
    apply inits_list; [reflexivity|discriminate|intros i' E; discriminate|].
    apply (lists_next KInt true whole [] [0%nat] _ [0%nat; 0%nat] (Array 4 (Scalar KChar)) [([], Some (VStr (lit "abc")))]
      _ [([0%nat; 1%nat], Some (VExpr (num 1))); ([2%nat; 0%nat], Some (VStr (lit "x"))); ([2%nat; 1%nat], Some (VExpr (num 2))); ([3%nat], None); ([3%nat; 0%nat], Some (VStr (lit "y")))]).
    { intros _. apply NG. }
    { apply (item_intro _ _ whole [0%nat] _ inner [0%nat]); [reflexivity| |reflexivity|apply inits_value; constructor; exact C].
      apply lands_first with (u := Array 4 (Scalar KChar)); [intros []|apply NV|reflexivity|]. apply lands_here. right. exact C. }
    apply (lists_next KInt true whole [] [0%nat; 1%nat] _ [0%nat; 1%nat] (Scalar KInt) [([], Some (VExpr (num 1)))]
      _ [([2%nat; 0%nat], Some (VStr (lit "x"))); ([2%nat; 1%nat], Some (VExpr (num 2))); ([3%nat], None); ([3%nat; 0%nat], Some (VStr (lit "y")))]).
    { intros _. apply NG. }
    { item0; [valuehere|]. apply inits_value. constructor. }
    apply (lists_designated KInt true whole [] _ _ [2%nat; 0%nat] _ [2%nat; 0%nat] (Array 4 (Scalar KChar)) [([], Some (VStr (lit "x")))]
      _ [([2%nat; 1%nat], Some (VExpr (num 2))); ([3%nat], None); ([3%nat; 0%nat], Some (VStr (lit "y")))]); [discriminate| | |].
    { apply (designates_index whole (num 2) 2 inner); [exact I|reflexivity|reflexivity|].
      apply (designates_member inner (nm "s") [0%nat] (Array 4 (Scalar KChar)) _ []); [apply member_here with (ft := Array 4 (Scalar KChar)); [discriminate|reflexivity]|reflexivity|constructor]. }
    { item0; [apply lands_here; right; exact C|]. apply inits_value. constructor. exact C. }
    assert (NG2 : forall cur, ~ stuck whole [2%nat; 0%nat] cur).
    { intros cur (p & k & p' & u & E & N & T & FO & _). destruct p as [|a [|b p]]; [congruence| |destruct p; discriminate].
      injection E as <- <- <-. injection T as <-. discriminate. }
    apply (lists_next KInt true whole _ [2%nat; 1%nat] _ [2%nat; 1%nat] (Scalar KInt) [([], Some (VExpr (num 2)))]
      _ [([3%nat], None); ([3%nat; 0%nat], Some (VStr (lit "y")))]).
    { intros _. apply NG2. }
    { item0; [valuehere|]. apply inits_value. constructor. }
    apply (lists_next KInt true whole _ [3%nat] _ [3%nat] inner [([], None); ([0%nat], Some (VStr (lit "y")))] _ []).
    { intros _. apply NG2. }
    { item0; [apply lands_here; left; exact I|]. apply inits_list; [reflexivity|discriminate|intros i' E; injection E as <-; intros []|].
      apply (lists_next KInt true inner [] [0%nat] _ [0%nat] (Array 4 (Scalar KChar)) [([], Some (VStr (lit "y")))] _ []).
      - intros _ (p & k & p' & u & E & _). destruct p; discriminate.
      - item0; [apply lands_here; right; exact C|]. apply inits_value. constructor. exact C.
      - constructor. }
    constructor.
Qed.
(** And no part is given twice. *)
Example C70_case_once : no_second_list whole steps.
Proof.
  assert (G : forall ws1 w ws2, steps = ws1 ++ w :: ws2 -> forallb (fun w1 => match snd w1 with Some _ => negb (overlap whole (fst w) (fst w1)) | None => true end) ws1 = true).
  { intros ws1 w ws2 E. unfold steps in E.
    do 7 (destruct ws1 as [|? ws1]; [injection E as <- E; reflexivity|injection E as <- E]). destruct ws1; discriminate. }
  intros ws1 w ws2 E p v IN O. pose proof (G ws1 w ws2 E) as H. rewrite forallb_forall in H. specialize (H _ IN). cbn in H. rewrite O in H. discriminate.
Qed.
Example C70_run : parse_initializer KInt 20 whole (print text ++ [TSemi]) =
  ok (Array 4 inner, IBrace [IBrace [ILeaf (VStr (lit "abc")); ILeaf (VExpr (num 1))]; IEmpty; IBrace [ILeaf (VStr (lit "x")); ILeaf (VExpr (num 2))]; IBrace [ILeaf (VStr (lit "y"))]], [TSemi]).
Proof. reflexivity. Qed.
