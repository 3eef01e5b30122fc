(** C71: a declaration gives every name it declares the type that C says. *)
From Coq Require Import Lia.
From Verif Require Import Base Fuel Declarator DeclaratorSpec DeclaratorProofs.
Local Open Scope Z_scope.
Local Open Scope list_scope.

(** A declaration is read to its end, whatever follows, and declares its names in
    order, each with the type its declarator gives. What is missing of the full
    property: the declarations that the hypotheses [plain_spec] and [plain_d]
    leave out; what happens to them is said below. *)
Theorem C71_declaration_partial : forall tdef s ds rest,
  good_spec tdef s -> plain_spec tdef s ->
  (forall d, In d ds -> good_d tdef false d /\ plain_d tdef d /\ name_d d <> []) ->
  exists f0, forall f, (f0 <= f)%nat ->
    declaration tdef f (map print_spec s ++ print_ds ds ++ TSemi :: rest) =
      Some (Ok (Some (map (fun d => (name_d d, type_d tdef (spec_type tdef s) d)) ds, None), rest)).
Proof.
  intros tdef s ds rest [[u T] NA] PS A.
  destruct (init_ok tdef (spec_type tdef s) ds rest A) as [f1 H1].
  exists f1. intros f L. unfold declaration.
  rewrite (specifiers_ok tdef s false u no_tq _ T NA).
  - rewrite (base_ok tdef s u T PS), H1 by exact L. reflexivity.
  - apply starts_no_spec. destruct ds as [|d ds]; [exact I|].
    assert (E : exists t, print_ds (d :: ds) ++ TSemi :: rest = print_d d ++ t /\ follows t).
    { destruct ds as [|d' ds]; [exists (TSemi :: rest); split; [reflexivity|exact I]|].
      exists (TComma :: print_ds (d' :: ds) ++ TSemi :: rest).
      change (print_ds (d :: d' :: ds)) with (print_d d ++ TComma :: print_ds (d' :: ds)).
      rewrite <- app_assoc. split; [reflexivity|exact I]. }
    destruct E as (t & -> & F). apply print_d_starts, F.
Qed.
Print Assumptions C71_declaration_partial.

(** The definition of a function: its parameters are those of the list next to
    its name, and the body sees their names. Left out: the list next to the name
    declares nothing, but another list in the declarator does. *)
Theorem C71_definition_partial : forall tdef s d p rest,
  good_spec tdef s -> plain_spec tdef s ->
  good_d tdef false d -> plain_d tdef d -> name_d d <> [] ->
  near_d d = Some (Some p) ->
  (params_of tdef p = [] -> lists_d d = false) ->
  exists f0, forall f, (f0 <= f)%nat ->
    declaration tdef f (map print_spec s ++ print_d d ++ TLbrace :: rest) =
      Some (Ok (Some ([(name_d d, type_d tdef (spec_type tdef s) d)],
                      Some {| f_params := params_of tdef p; f_visible := map fst (params_of tdef p) |}),
                TLbrace :: rest)).
Proof.
  intros tdef s d p rest [[u T] NA] PS G P N NE V.
  destruct (parse_d tdef d false (Some None) (TLbrace :: rest) G P I) as [f1 H1].
  exists (S f1). intros [|f] L; [lia|]. unfold declaration.
  rewrite (specifiers_ok tdef s false u no_tq _ T NA) by (apply starts_no_spec, print_d_starts, I).
  rewrite (base_ok tdef s u T PS), init_S, H1 by lia. cbn [exbind ok bind].
  rewrite named_oast by exact N. rewrite (type_d_ok tdef d false _ G P). cbn [exbind].
  destruct (name_d d) as [|x xs]; [elim N; reflexivity|].
  pose proof (near_build tdef d) as B. rewrite NE in B. destruct B as [_ B]. rewrite B. cbn [exbind ok].
  pose proof (keep_near tdef d) as K. rewrite NE in K.
  destruct p as [| |q|l dots].
  - rewrite keep_none by (apply V; reflexivity). reflexivity.
  - rewrite keep_none by (apply V; reflexivity). reflexivity.
  - rewrite keep_none by (apply V; reflexivity). reflexivity.
  - rewrite K. reflexivity.
Qed.
Print Assumptions C71_definition_partial.

(** A type name, as in casts and sizeof: the type that its declarator gives. *)
Theorem C71_type_name_partial : forall tdef s d rest,
  good_spec tdef s -> plain_spec tdef s ->
  good_d tdef false d -> plain_d tdef d -> name_d d = [] ->
  exists f0, forall f, (f0 <= f)%nat ->
    type_name tdef f (map print_spec s ++ print_d d ++ TRpar :: rest) =
      Some (Ok (Some (type_d tdef (spec_type tdef s) d), TRpar :: rest)).
Proof.
  intros tdef s d rest [[u T] NA] PS G P N.
  destruct (parse_d tdef d false None (TRpar :: rest) G P I) as [f1 H1].
  exists f1. intros f L. unfold type_name.
  rewrite (specifiers_ok tdef s false u no_tq _ T NA) by (apply starts_no_spec, print_d_starts, I).
  rewrite H1 by exact L. cbn [exbind ok]. rewrite (base_ok tdef s u T PS). cbn [bind].
  rewrite (type_opt_ok tdef d false _ G P), N. reflexivity.
Qed.
Print Assumptions C71_type_name_partial.

(** * The hypotheses are met *)
Definition tdef0 (s : list Z) : option ty :=
  match s with [84] => Some (Basic false 7) | [65] => Some (Array false (Fixed 3) (Basic false 1)) | _ => None end.

(** int *const ( *f(T x, const int y[static 4], int (T), ...))[5], with T a typedef
    name. *)
Definition f_decl : decl :=
  DPointer [QConst]
    (DDirect (CParen (DPointer []
       (DDirect (CName [102])
          (SFunction (PList
             (PMore [ITypedef [84]] (DDirect (CName [120]) SNil)
             (PMore [IQual QConst; IType 1] (DDirect (CName [121]) (SArray First [] (Size (Const true 4)) SNil))
             (POne [IType 1] (DDirect CNone (SFunction (PList (POne [ITypedef [84]] (DDirect CNone SNil)) false) SNil)))))
             true) SNil))))
       (SArray NoStatic [] (Size (Const true 5)) SNil)).

Example C71_case :
  good_spec tdef0 [IType 1] /\ plain_spec tdef0 [IType 1] /\
  good_d tdef0 false f_decl /\ plain_d tdef0 f_decl /\ name_d f_decl = [102] /\
  exists p, near_d f_decl = Some (Some p) /\ map fst (params_of tdef0 p) = [[120]; [121]; []].
Proof.
  assert (TY : good_spec tdef0 [ITypedef [84]] /\ plain_spec tdef0 [ITypedef [84]]).
  { split; [split; [eexists; reflexivity|intros []]|]. split; [cbn; lia|discriminate]. }
  assert (IN : good_spec tdef0 [IType 1] /\ plain_spec tdef0 [IType 1]).
  { split; [split; [eexists; reflexivity|intros []]|]. split; [cbn; lia|discriminate]. }
  assert (CI : good_spec tdef0 [IQual QConst; IType 1] /\ plain_spec tdef0 [IQual QConst; IType 1]).
  { split; [split; [eexists; reflexivity|intros [E|[]]; discriminate E]|].
    split; [cbn; lia|]. intros _ t E. injection E as <-. exact I. }
  destruct TY as [TY1 TY2], IN as [IN1 IN2], CI as [CI1 CI2].
  split; [exact IN1|]. split; [exact IN2|].
  split; [|split; [|split; [reflexivity|]]].
  - cbn -[good_spec]. repeat split; try discriminate; try assumption; try lia; intros; try discriminate;
      try (match goal with H : exists _, _ |- _ => destruct H as [c E]; discriminate E end).
    all: try exact (proj1 TY1); try exact (proj2 TY1); try exact (proj1 CI1); try exact (proj2 CI1);
      try exact (proj1 IN1); try exact (proj2 IN1).
    all: intros [c E]; discriminate E.
  - cbn -[plain_spec]. repeat split; try exact (proj1 TY2); try exact (proj2 TY2); try exact (proj1 CI2);
      try exact (proj2 CI2); try exact (proj1 IN2); try exact (proj2 IN2); try lia.
  - eexists. split; [reflexivity|]. reflexivity.
Qed.

Example C71_run :
  declaration tdef0 20 (map print_spec [IType 1] ++ print_d f_decl ++ [TLbrace]) =
    Some (Ok (Some ([([102],
       Func false (Pointer false (Array false (Fixed 5) (Pointer true (Basic false 1))))
         [Basic false 7; Pointer false (Basic true 1); Pointer false (Func false (Basic false 1) [Basic false 7] false)]
         true)],
       Some {| f_params := [([120], Basic false 7); ([121], Pointer false (Basic true 1));
                            ([], Pointer false (Func false (Basic false 1) [Basic false 7] false))];
               f_visible := [[120]; [121]; []] |}), [TLbrace])).
Proof. vm_compute. reflexivity. Qed.

(** * Refuted parts *)
(** const written more than once has no effect at all. *)
Theorem C71_const_twice_refuted : forall tdef n q s rest, (2 <= consts q)%nat -> s <> [] ->
  exists f0, forall f, (f0 <= f)%nat ->
    declaration tdef f (TType n :: print_d (DPointer q (DDirect (CName s) SNil)) ++ TSemi :: rest) =
      Some (Ok (Some ([(s, Pointer false (Basic false n))], None), rest)) /\
    type_d tdef (Basic false n) (DPointer q (DDirect (CName s) SNil)) = Pointer true (Basic false n).
Proof.
  intros tdef n q s rest C N. exists 4%nat. intros [|[|[|[|f]]]] L; try lia. split.
  - unfold declaration. cbn [print_d print_c print_s app specifiers base].
    rewrite init_S. rewrite <- app_assoc. cbn [app].
    rewrite (declarator_star tdef _ _ _ (addq no_tq q) (TName s :: TSemi :: rest)) by (apply qualifiers_ok, I).
    cbn [declarator suffixes exbind ok bind to_type].
    assert (E : forall t, apply_tq t (addq no_tq q) = t).
    { intros t. unfold apply_tq. rewrite addq_const. cbn [no_tq const_n Nat.add].
      replace (Nat.eqb (consts q) 1) with false by (symmetry; apply Nat.eqb_neq; lia). reflexivity. }
    rewrite E. unfold apply_tq; cbn [no_tq const_n Nat.eqb].
    destruct s as [|x s]; [elim N; reflexivity|]. reflexivity.
  - cbn [type_d type_c type_s]. replace (has_const q) with true; [reflexivity|].
    clear -C. symmetry. unfold consts in C. unfold has_const. induction q as [|[] q IH]; cbn in C |- *; auto. lia.
Qed.
Print Assumptions C71_const_twice_refuted.

Lemma one_param : forall tdef n g s u x rest, g <> [] -> spec_types tdef s = [Some u] -> ~ In QAtomic (spec_quals s) ->
  (x = None -> s <> [IVoid]) ->
  evs (fun f => declaration tdef f (TType n :: TName g :: TLpar ::
        map print_spec s ++ (match x with Some x => [TName x] | None => [] end) ++ TRpar :: TSemi :: rest))
      (Some ([(g, Func false (Basic false n) [adjust_parameter (apply_tq u (addq no_tq (spec_quals s)))] false)], None), rest).
Proof.
  intros tdef n g s u x rest N T NA V.
  exists 8%nat. intros f L. do 8 (destruct f as [|f]; [lia|]).
  unfold declaration. cbn [specifiers base]. rewrite init_S.
  set (toks := map print_spec s ++ _ ++ TRpar :: TSemi :: rest).
  rewrite declarator_name, suffixes_lpar.
  assert (H : match toks with TRpar :: _ => False | TVoid :: TRpar :: _ => False | _ => True end).
  { subst toks. destruct s as [|[|m|y|y|m] s]; try discriminate T; try exact I.
    destruct s as [|[|m|y|y|m] s]; try exact I. destruct x; [exact I|]. elim (V eq_refl); reflexivity. }
  rewrite function_parameters_list by exact H. rewrite parameter_list_S. subst toks.
  rewrite (specifiers_ok tdef s false u no_tq _ T NA) by (destruct x; exact I).
  cbn [base bind]. destruct g as [|y g]; [elim N; reflexivity|].
  destruct x as [x|].
  - cbn [app]. rewrite declarator_name, suffixes_end by exact I. cbn [exbind ok to_type_opt to_type].
    rewrite suffixes_end by exact I. cbn [exbind ok bind to_type map snd].
    rewrite init_S. rewrite declarator_none by exact I. reflexivity.
  - cbn [app]. rewrite declarator_none by exact I. cbn [exbind ok to_type_opt to_type].
    rewrite suffixes_end by exact I. cbn [exbind ok bind to_type map snd].
    rewrite init_S. rewrite declarator_none by exact I. reflexivity.
Qed.

(** A parameter declared with const and the name of an array type becomes a
    constant pointer to elements that may be changed; C says a pointer to constant
    elements. *)
Theorem C71_const_array_refuted : forall tdef n g a l e s rest, tdef a = Some (Array false l e) -> g <> [] ->
  let d := DDirect (CName g) (SFunction (PList (POne [IQual QConst; ITypedef a] (DDirect (CName s) SNil)) false) SNil) in
  exists f0, forall f, (f0 <= f)%nat ->
    declaration tdef f (TType n :: print_d d ++ TSemi :: rest) =
      Some (Ok (Some ([(g, Func false (Basic false n) [Pointer true e] false)], None), rest)) /\
    type_d tdef (Basic false n) d = Func false (Basic false n) [Pointer false (qualify e)] false.
Proof.
  intros tdef n g a l e s rest T N d. subst d.
  assert (TY : spec_types tdef [IQual QConst; ITypedef a] = [Some (Array false l e)])
    by (cbn [spec_types flat_map app]; rewrite T; reflexivity).
  destruct (one_param tdef n g [IQual QConst; ITypedef a] (Array false l e) (Some s) rest N TY) as [f0 H].
  - intros [E|[]]; discriminate E.
  - discriminate.
  - exists f0. intros f L. split; [exact (H f L)|].
    cbn [type_d type_c type_s params_l map snd name_d name_c]. unfold spec_type. rewrite TY. reflexivity.
Qed.
Print Assumptions C71_const_array_refuted.

(** An array size that starts with a star is refused: the star is taken for the
    unspecified size. *)
Theorem C71_deref_refuted : forall tdef n s e rest f,
  declaration tdef (S (S (S f))) (TType n :: print_d (DDirect (CName s) (SArray NoStatic [] (Deref e) SNil)) ++ TSemi :: rest)
    = Some Fail.
Proof. intros. reflexivity. Qed.
Print Assumptions C71_deref_refuted.

(** A declaration that gives a typedef name a new meaning, in parentheses, is
    refused: the name is taken for a parameter. *)
Theorem C71_typedef_refuted : forall tdef n s t rest, tdef s = Some t ->
  exists f0, forall f, (f0 <= f)%nat ->
    declaration tdef f (TType n :: print_d (DDirect (CParen (DDirect (CName s) SNil)) SNil) ++ TSemi :: rest) = Some Fail.
Proof.
  intros tdef n s t rest T. exists 8%nat. intros f L. do 8 (destruct f as [|f]; [lia|]).
  unfold declaration. cbn [print_d print_c print_s app specifiers base]. rewrite init_S.
  rewrite declarator_lpar. cbn [starts_typedef]. rewrite T. cbn [exbind ok].
  rewrite function_parameters_list by exact I.
  rewrite parameter_list_S. cbn [specifiers]. rewrite T. cbn [specifiers].
  rewrite declarator_none by exact I. cbn [exbind ok base bind to_type_opt].
  rewrite suffixes_end by exact I. reflexivity.
Qed.
Print Assumptions C71_typedef_refuted.

(** A parameter list that says void by a typedef name declares a parameter. *)
Theorem C71_void_refuted : forall tdef n g v rest, tdef v = Some (Basic false 0) -> g <> [] ->
  let d := DDirect (CName g) (SFunction (PVoidName v) SNil) in
  exists f0, forall f, (f0 <= f)%nat ->
    declaration tdef f (TType n :: print_d d ++ TSemi :: rest) =
      Some (Ok (Some ([(g, Func false (Basic false n) [Basic false 0] false)], None), rest)) /\
    type_d tdef (Basic false n) d = Func false (Basic false n) [] false.
Proof.
  intros tdef n g v rest T N d. subst d.
  assert (TY : spec_types tdef [ITypedef v] = [Some (Basic false 0)])
    by (cbn [spec_types flat_map app]; rewrite T; reflexivity).
  destruct (one_param tdef n g [ITypedef v] (Basic false 0) None rest N TY) as [f0 H].
  - intros [].
  - intros _. discriminate.
  - exists f0. intros f L. split; [exact (H f L)|reflexivity].
Qed.
Print Assumptions C71_void_refuted.

(** int ( *f(void))(T x) { ... }: the body sees x, which is no parameter of f. *)
Theorem C71_scope_refuted : forall tdef n m g x rest, g <> [] ->
  let d := DDirect (CParen (DPointer [] (DDirect (CName g) (SFunction PVoid SNil))))
                   (SFunction (PList (POne [IType m] (DDirect (CName x) SNil)) false) SNil) in
  near_d d = Some (Some PVoid) /\
  exists f0, forall f, (f0 <= f)%nat ->
    declaration tdef f (TType n :: print_d d ++ TLbrace :: rest) =
      Some (Ok (Some ([(g, type_d tdef (Basic false n) d)],
                      Some {| f_params := []; f_visible := [x] |}), TLbrace :: rest)).
Proof.
  intros tdef n m g x rest N d. subst d. split; [reflexivity|].
  exists 10%nat. intros f L. do 10 (destruct f as [|f]; [lia|]).
  unfold declaration. cbn [print_d print_c print_s print_p print_l print_quals app specifiers base map print_spec].
  rewrite init_S. rewrite declarator_lpar. cbn [starts_typedef].
  rewrite (declarator_star tdef _ _ _ no_tq (TName g :: TLpar :: TVoid :: TRpar :: TRpar :: TLpar :: TType m :: TName x :: TRpar :: TLbrace :: rest)) by reflexivity.
  rewrite declarator_name, suffixes_lpar.
  change (function_parameters tdef (S (S (S (S (S f))))) (Term g) (Some None) (TVoid :: TRpar :: TRpar :: TLpar :: TType m :: TName x :: TRpar :: TLbrace :: rest))
    with (ok (AFunction [] false (Term g), Some (@None (list (list Z))), TRpar :: TLpar :: TType m :: TName x :: TRpar :: TLbrace :: rest)).
  cbn [exbind ok]. rewrite suffixes_end by exact I. cbn [exbind ok].
  rewrite suffixes_end by exact I. cbn [exbind ok].
  rewrite suffixes_lpar. rewrite function_parameters_list by exact I. rewrite parameter_list_S. cbn [specifiers].
  rewrite declarator_name, suffixes_end by exact I. cbn [exbind ok base bind to_type_opt to_type].
  rewrite suffixes_end by exact I. 
  destruct g as [|y g]; [elim N; reflexivity|]. reflexivity.
Qed.
Print Assumptions C71_scope_refuted.

(** Commas between declarators may be missing, and a parameter list may end with
    one: neither is C. *)
Theorem C71_comma_refuted : forall tdef n a b rest, a <> [] -> b <> [] ->
  exists f0, forall f, (f0 <= f)%nat ->
    declaration tdef f (TType n :: TName a :: TName b :: TSemi :: rest) =
      Some (Ok (Some ([(a, Basic false n); (b, Basic false n)], None), rest)) /\
    declaration tdef f (TType n :: TName a :: TLpar :: TType n :: TComma :: TRpar :: TSemi :: rest) =
      Some (Ok (Some ([(a, Func false (Basic false n) [Basic false n] false)], None), rest)).
Proof.
  intros tdef n a b rest NA NB. exists 8%nat. intros f L. do 8 (destruct f as [|f]; [lia|]).
  destruct a as [|x a]; [elim NA; reflexivity|]. destruct b as [|y b]; [elim NB; reflexivity|].
  unfold declaration. cbn [specifiers base]. split.
  - rewrite init_S, declarator_name, suffixes_end by exact I. cbn [exbind ok bind to_type].
    rewrite init_S, declarator_name, suffixes_end by exact I. cbn [exbind ok bind to_type].
    rewrite init_S, declarator_none by exact I. reflexivity.
  - rewrite init_S, declarator_name, suffixes_lpar, function_parameters_list by exact I.
    rewrite parameter_list_S. cbn [specifiers]. rewrite declarator_none by exact I.
    cbn [exbind ok base bind to_type_opt]. rewrite parameter_list_S. cbn [specifiers list_end exbind ok].
    rewrite suffixes_end by exact I. cbn [exbind ok bind to_type map snd].
    rewrite init_S, declarator_none by exact I. reflexivity.
Qed.
Print Assumptions C71_comma_refuted.

(** 6.7.6.2p1: outside a parameter no qualifier may be in the brackets of an
    array, and static needs a size: such declarations are refused. *)
Theorem C71_brackets : forall tdef n a s q z rest, a <> [] ->
  (q <> [] \/ (s <> NoStatic /\ z = NoSize)) ->
  exists f0, forall f, (f0 <= f)%nat ->
    declaration tdef f (TType n :: TName a :: TLbrack :: print_array s q z ++ TRbrack :: TSemi :: rest) =
      Some Fail.
Proof.
  intros tdef n a s q z rest NA H. exists 4%nat. intros f L. do 4 (destruct f as [|f]; [lia|]).
  unfold declaration. cbn [specifiers base]. rewrite init_S, declarator_name, suffixes_lbrack.
  assert (A : array_suffix (print_array s q z ++ TRbrack :: TSemi :: rest) = Fail \/
    exists k, array_suffix (print_array s q z ++ TRbrack :: TSemi :: rest) = Ok (k, addq no_tq q, TSemi :: rest) /\ q <> []).
  { unfold print_array, array_suffix.
    assert (Q : forall r, no_qual r -> qualifiers no_tq (print_quals q ++ r) = (addq no_tq q, r))
      by (intros r N; apply qualifiers_ok, N).
    rewrite <- !app_assoc.
    assert (AS : accept_static (print_quals q ++ match s with Last => [TStatic] | _ => [] end ++
              print_size z ++ TRbrack :: TSemi :: rest) =
            match q, s with
            | [], Last => (true, print_size z ++ TRbrack :: TSemi :: rest)
            | _, _ => (false, print_quals q ++ match s with Last => [TStatic] | _ => [] end ++
              print_size z ++ TRbrack :: TSemi :: rest)
            end).
    { destruct q; [destruct s, z|]; reflexivity. }
    destruct s; cbn [app accept_static] in *.
    - rewrite AS. clear AS. destruct q as [|x q].
      + destruct H as [H|[H _]]; elim H; reflexivity.
      + rewrite Q by (destruct z; exact I).
        destruct z; cbn [print_size app accept_static orb]; (right; eexists; split; [reflexivity|discriminate]) || (left; reflexivity).
    - rewrite Q by (destruct z; exact I). clear AS.
      destruct H as [H|[_ ->]]; [|left; reflexivity].
      destruct z; cbn [print_size app accept_static orb]; (right; eexists; split; [reflexivity|exact H]) || (left; reflexivity).
    - rewrite AS. clear AS. destruct q as [|x q].
      + destruct H as [H|[_ ->]]; [elim H; reflexivity|left; reflexivity].
      + rewrite Q by (destruct z; exact I).
        destruct z; cbn [print_size app accept_static orb]; (right; eexists; split; [reflexivity|discriminate]) || (left; reflexivity). }
  destruct A as [-> |(k & -> & Nq)]; [reflexivity|].
  rewrite suffixes_end by exact I. cbn [exbind ok bind to_type].
  assert (NQ : null_tq (addq no_tq q) = false).
  { assert (G : forall q t, null_tq t = false -> null_tq (addq t q) = false).
    { induction q0 as [|x q0 IH]; intros t E; [exact E|]. apply IH. unfold null_tq in *.
      destruct x; cbn; rewrite ?andb_false_r; try reflexivity. }
    destruct q as [|x q]; [elim Nq; reflexivity|].
    change (null_tq (addq (count x no_tq) q) = false). apply G. destruct x; reflexivity. }
  rewrite NQ. destruct k as [| |[[] m|e]]; cbn [array_length bind andb]; try destruct (m <=? 0); reflexivity.
Qed.
Print Assumptions C71_brackets.
Example C71_brackets_const : forall tdef rest, exists f0, forall f, (f0 <= f)%nat ->
  declaration tdef f (TType 1 :: TName [97] :: TLbrack :: TQual QConst :: TSize (Const true 3) :: TRbrack :: TSemi :: rest) = Some Fail.
Proof. intros tdef rest. apply (C71_brackets tdef 1 [97] NoStatic [QConst] (Size (Const true 3)) rest); [discriminate|left; discriminate]. Qed.

(** Nor is it accepted in a parameter. *)
Theorem C71_static_parameter : forall tdef n a b s q rest, a <> [] -> b <> [] -> s <> NoStatic ->
  exists f0, forall f, (f0 <= f)%nat ->
    declaration tdef f (TType n :: TName a :: TLpar :: TType n :: TName b :: TLbrack ::
                        print_array s q NoSize ++ TRbrack :: TRpar :: TSemi :: rest) = Some Fail.
Proof.
  intros tdef n a b s q rest NA NB NS. exists 8%nat. intros f L. do 8 (destruct f as [|f]; [lia|]).
  unfold declaration. cbn [specifiers base]. rewrite init_S, declarator_name, suffixes_lpar, function_parameters_list by exact I.
  rewrite parameter_list_S. cbn [specifiers]. rewrite declarator_name, suffixes_lbrack.
  assert (A : array_suffix (print_array s q NoSize ++ TRbrack :: TRpar :: TSemi :: rest) = Fail).
  { unfold print_array, array_suffix. cbn [print_size]. rewrite app_nil_r, <- !app_assoc.
    destruct s; [elim NS; reflexivity| |]; cbn [app accept_static].
    - rewrite qualifiers_ok by exact I. reflexivity.
    - destruct q as [|x q].
      + reflexivity.
      + cbn [print_quals map app accept_static].
        change (TQual x :: map TQual q ++ TStatic :: TRbrack :: TRpar :: TSemi :: rest)
          with (print_quals (x :: q) ++ TStatic :: TRbrack :: TRpar :: TSemi :: rest).
        rewrite qualifiers_ok by exact I. reflexivity. }
  rewrite A. reflexivity.
Qed.
Print Assumptions C71_static_parameter.
