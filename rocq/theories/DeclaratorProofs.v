(** Proofs about declarators: what is spelled as DeclaratorSpec.v says is parsed
    and typed as it says. *)
From Coq Require Import Lia.
From Verif Require Import Base Fuel Declarator DeclaratorSpec.
Local Open Scope Z_scope.
Local Open Scope list_scope.

Scheme decl_i := Induction for decl Sort Prop
  with core_i := Induction for core Sort Prop
  with sufs_i := Induction for sufs Sort Prop
  with params_i := Induction for params Sort Prop
  with plist_i := Induction for plist Sort Prop.
Combined Scheme decl_all from decl_i, core_i, sufs_i, params_i, plist_i.

Definition evs {A} (F : nat -> ex A) (r : A) : Prop := exists f0, forall f, (f0 <= f)%nat -> F f = ok r.

(** * Qualifiers *)
Definition addq (t : tq) (q : list qual) : tq := fold_left (fun t x => count x t) q t.

Lemma addq_const : forall q t, const_n (addq t q) = (const_n t + consts q)%nat.
Proof.
  induction q as [|x q IH]; intros t; [cbn; lia|].
  cbn [addq fold_left]. change (fold_left (fun t x => count x t) q (count x t)) with (addq (count x t) q).
  rewrite IH. destruct x; unfold consts; cbn [filter List.length count const_n]; fold (consts q); lia.
Qed.

Definition no_qual (toks : list tok) : Prop := match toks with TQual _ :: _ => False | _ => True end.
Lemma qualifiers_ok : forall q t rest, no_qual rest -> qualifiers t (print_quals q ++ rest) = (addq t q, rest).
Proof.
  induction q as [|x q IH]; intros t rest N.
  - cbn [print_quals map app addq fold_left]. destruct rest as [|[] ?]; cbn in N |- *; try reflexivity. contradiction.
  - cbn [print_quals map app]. cbn [qualifiers]. apply IH, N.
Qed.

Lemma consts_has : forall q, (consts q <= 1)%nat -> Nat.eqb (consts q) 1 = has_const q.
Proof.
  unfold consts, has_const. induction q as [|[] q IH]; cbn; intros L; auto.
  destruct (filter _ q) as [|? ?] eqn:E; cbn in L |- *; [reflexivity|lia].
Qed.

Lemma apply_pointer : forall q t, (consts q <= 1)%nat ->
  apply_tq (Pointer false t) (addq no_tq q) = Pointer (has_const q) t.
Proof.
  intros q t L. unfold apply_tq. rewrite addq_const. cbn [no_tq const_n Nat.add].
  rewrite consts_has by exact L. destruct (has_const q); reflexivity.
Qed.
Lemma apply_array : forall q l t, (consts q <= 1)%nat ->
  apply_tq (Array false l t) (addq no_tq q) = Array (has_const q) l t.
Proof.
  intros q l t L. unfold apply_tq. rewrite addq_const. cbn [no_tq const_n Nat.add].
  rewrite consts_has by exact L. destruct (has_const q); reflexivity.
Qed.
Lemma adjust_ok : forall t, adjust_parameter t = adjusted t.
Proof. destruct t as [| |[] |]; reflexivity. Qed.

Section Names.
Variable tdef : list Z -> option ty.
Notation declarator := (declarator tdef).
Notation suffixes := (suffixes tdef).
Notation function_parameters := (function_parameters tdef).
Notation parameter_list := (parameter_list tdef).
Notation type_d := (type_d tdef).
Notation type_c := (type_c tdef).
Notation type_s := (type_s tdef).
Notation params_l := (params_l tdef).
Notation params_of := (params_of tdef).

(** * Specifiers *)
Definition no_spec (toks : list tok) : Prop :=
  match toks with
  | TVoid :: _ | TType _ :: _ | TStatic :: _ | TStorage _ :: _ | TQual _ :: _ => False
  | _ => True
  end.

Lemma specifiers_rest : forall s m u q rest,
  spec_types tdef s = [] -> ~ In QAtomic (spec_quals s) -> no_spec rest ->
  specifiers tdef m true (Some u) q (map print_spec s ++ rest) =
    Ok (match s with [] => m | _ => true end, Some u, addq q (spec_quals s), rest).
Proof.
  induction s as [|i s IH]; intros m u q rest T A N.
  - cbn [map app spec_quals flat_map addq fold_left].
    destruct rest as [|[] ?]; cbn in N |- *; try reflexivity; contradiction.
  - destruct i as [|n|x|x|n]; cbn in T; try discriminate T.
    + assert (A' : ~ In QAtomic (spec_quals s)) by (intros I; apply A; cbn; right; exact I).
      cbn [map app print_spec spec_quals flat_map].
      destruct x; try (cbn [specifiers]; rewrite IH by assumption; destruct s; reflexivity).
      elim A. cbn. left; reflexivity.
    + cbn [map app print_spec spec_quals flat_map specifiers]. rewrite IH by assumption. destruct s; reflexivity.
Qed.

Lemma specifiers_ok : forall s m u q rest,
  spec_types tdef s = [Some u] -> ~ In QAtomic (spec_quals s) -> no_spec rest ->
  specifiers tdef m false None q (map print_spec s ++ rest) = Ok (true, Some u, addq q (spec_quals s), rest).
Proof.
  induction s as [|i s IH]; intros m u q rest T A N; [discriminate T|].
  destruct i as [|n|x|x|n]; cbn in T.
  - injection T as <- T. cbn [map app print_spec specifiers]. rewrite specifiers_rest by assumption.
    destruct s; reflexivity.
  - injection T as <- T. cbn [map app print_spec specifiers]. rewrite specifiers_rest by assumption.
    destruct s; reflexivity.
  - injection T as T0 T. cbn [map app print_spec specifiers]. rewrite T0. rewrite specifiers_rest by assumption.
    destruct s; reflexivity.
  - assert (A' : ~ In QAtomic (spec_quals s)) by (intros I; apply A; cbn; right; exact I).
    cbn [map app print_spec spec_quals flat_map].
    destruct x; try (cbn [specifiers]; rewrite (IH _ u) by assumption; reflexivity).
    elim A. cbn. left; reflexivity.
  - cbn [map app print_spec spec_quals flat_map specifiers]. rewrite (IH _ u) by assumption. reflexivity.
Qed.

Lemma base_ok : forall s u, spec_types tdef s = [Some u] -> plain_spec tdef s ->
  base (Some u) (addq no_tq (spec_quals s)) = Ok (spec_type tdef s).
Proof.
  intros s u T [L C]. unfold base, spec_type, apply_tq. rewrite T, addq_const. cbn [no_tq const_n Nat.add].
  rewrite consts_has by exact L. destruct (has_const (spec_quals s)) eqn:H; [|reflexivity].
  specialize (C eq_refl u T). destruct u; try contradiction; reflexivity.
Qed.

(** * What the parser builds *)
Definition kind_of (n : asize) : akind :=
  match n with NoSize => AEmpty | Star | Deref _ => AStar | Size e => AExpr e end.
Definition dots_of (p : params) : bool := match p with PNone => true | PVoid | PVoidName _ => false | PList _ d => d end.
Fixpoint build_s (a : ast) (l : sufs) : ast :=
  match l with
  | SNil => a
  | SArray _ q n l => build_s (AArray (kind_of n) (addq no_tq q) a) l
  | SFunction p l => build_s (AFunction (params_of p) (dots_of p) a) l
  end.
Fixpoint build_d (d : decl) : ast :=
  match d with
  | DPointer q d => APointer (addq no_tq q) (build_d d)
  | DDirect c l => build_s (build_c c) l
  end
with build_c (c : core) : ast :=
  match c with CNone => Term [] | CName s => Term s | CParen d => build_d d end.
Definition oast (d : decl) : option ast :=
  match d with DDirect CNone SNil => None | _ => Some (build_d d) end.

Definition keep_p (h : symbols) (p : params) : symbols :=
  match p with PList l _ => keep h (params_l l) | _ => h end.
Fixpoint keep_s (h : symbols) (l : sufs) : symbols :=
  match l with
  | SNil => h
  | SArray _ _ _ l => keep_s h l
  | SFunction p l => keep_s (keep_p h p) l
  end.
Fixpoint keep_d (h : symbols) (d : decl) : symbols :=
  match d with DPointer _ d => keep_d h d | DDirect c l => keep_s (keep_c h c) l end
with keep_c (h : symbols) (c : core) : symbols :=
  match c with CParen d => keep_d h d | _ => h end.

(** * How declarators start *)
Definition starts (toks : list tok) : Prop :=
  match toks with
  | TName _ :: _ | TLpar :: _ | TStar :: _ | TLbrack :: _
  | TComma :: _ | TRpar :: _ | TSemi :: _ | TLbrace :: _ => True
  | _ => False
  end.
Lemma follows_starts : forall r, follows r -> starts r.
Proof. destruct r as [|[] r]; cbn; auto. Qed.
Lemma starts_no_qual : forall r, starts r -> no_qual r.
Proof. destruct r as [|[] r]; cbn; auto. Qed.
Lemma starts_no_spec : forall r, starts r -> no_spec r.
Proof. destruct r as [|[] r]; cbn; auto. Qed.
Lemma print_s_starts : forall l rest, starts rest -> starts (print_s l ++ rest).
Proof. destruct l; cbn [print_s app]; intros rest F; try exact I. exact F. Qed.
Lemma print_d_starts : forall d rest, follows rest -> starts (print_d d ++ rest).
Proof.
  intros [q d|[|s|d] l] rest F; cbn [print_d print_c app]; try exact I.
  apply print_s_starts, follows_starts, F.
Qed.

Definition ends (toks : list tok) : Prop := match toks with TLpar :: _ | TLbrack :: _ => False | _ => True end.
Lemma follows_ends : forall r, follows r -> ends r.
Proof. destruct r as [|[] r]; cbn; auto. Qed.

(** * One step of the parser *)
Lemma declarator_star : forall f h ts q ts', qualifiers no_tq ts = (q, ts') ->
  declarator (S f) h (TStar :: ts) =
    (let! r := declarator f h ts' in
     let '(o, h', ts'') := r in
     suffixes f (APointer q (match o with Some a => a | None => Term [] end)) h' ts'').
Proof. intros f h ts q ts' E. cbn [Declarator.declarator]. rewrite E. reflexivity. Qed.
Lemma declarator_lpar : forall f h ts,
  declarator (S f) h (TLpar :: ts) =
    (let! r := if starts_typedef tdef ts then ok (None, h, ts) else declarator f h ts in
     let '(o, h', ts') := r in
     match o with
     | None =>
         let! r := function_parameters f (Term []) h' ts' in
         let '(a, h'', ts'') := r in
         suffixes f a h'' ts''
     | Some a =>
         match ts' with
         | TRpar :: ts'' => suffixes f a h' ts''
         | _ => Some Fail
         end
     end).
Proof. reflexivity. Qed.
Lemma suffixes_lbrack : forall f a h ts,
  suffixes (S f) a h (TLbrack :: ts) =
    match array_suffix ts with
    | Ok (k, q, ts') => suffixes f (AArray k q a) h ts'
    | Fail => Some Fail
    | Undef => Some Undef
    end.
Proof. reflexivity. Qed.
Lemma suffixes_lpar : forall f a h ts,
  suffixes (S f) a h (TLpar :: ts) =
    (let! r := function_parameters f a h ts in
     let '(a', h', ts') := r in
     suffixes f a' h' ts').
Proof. reflexivity. Qed.
Lemma suffixes_end : forall f a h ts, ends ts -> suffixes (S f) a h ts = ok (Some a, h, ts).
Proof. intros f a h [|[] ts] E; try reflexivity; contradiction. Qed.
Lemma declarator_name : forall f h x ts, declarator (S f) h (TName x :: ts) = suffixes f (Term x) h ts.
Proof. reflexivity. Qed.
Lemma declarator_none : forall f h ts, follows ts -> declarator (S f) h ts = ok (None, h, ts).
Proof. intros f h [|[] ts] F; try contradiction; reflexivity. Qed.
Lemma function_parameters_list : forall f a h toks,
  match toks with TRpar :: _ => False | TVoid :: TRpar :: _ => False | _ => True end ->
  function_parameters (S f) a h toks =
    (let! r := parameter_list f toks in
     let '(ps, v, ts) := r in
     ok (AFunction ps v a, keep h ps, ts)).
Proof. intros f a h [|[] [|[] ts]] H; try contradiction; reflexivity. Qed.
Lemma parameter_list_S : forall f toks,
  parameter_list (S f) toks =
      match specifiers tdef false false None no_tq toks with
      | Ok (false, _, _, ts) => list_end ts
      | Ok (true, t, q, ts) =>
          let! r := declarator f None ts in
          let '(o, _, ts') := r in
          let! (pt, name) := Some (let* b := base t q in to_type_opt true b o) in
          let p := (name, adjust_parameter pt) in
          match ts' with
          | TRpar :: ts'' => ok ([p], false, ts'')
          | TComma :: ts'' =>
              let! r := parameter_list f ts'' in
              let '(ps, v, rest) := r in
              ok (p :: ps, v, rest)
          | _ => Some Fail
          end
      | Fail => Some Fail
      | Undef => Some Undef
      end.
Proof. reflexivity. Qed.

Lemma array_ok : forall s q n rest, good_array s n -> plain_size n ->
  array_suffix (print_array s q n ++ TRbrack :: rest) = Ok (kind_of n, addq no_tq q, rest).
Proof.
  intros s q n rest G P. unfold array_suffix, print_array. rewrite <- !app_assoc.
  assert (Q : forall r, no_qual r -> qualifiers no_tq (print_quals q ++ r) = (addq no_tq q, r))
    by (intros r N; apply qualifiers_ok, N).
  destruct s; cbn [app accept_static].
  - assert (E : accept_static (print_quals q ++ print_size n ++ TRbrack :: rest)
                = (false, print_quals q ++ print_size n ++ TRbrack :: rest)).
    { destruct q; [destruct n|]; reflexivity. }
    rewrite E, Q by (destruct n; exact I).
    destruct n as [| |e|e]; try reflexivity. contradiction.
  - rewrite Q by (destruct n; exact I). destruct n as [| |e|e]; try discriminate G; try contradiction. reflexivity.
  - assert (E : accept_static (print_quals q ++ TStatic :: print_size n ++ TRbrack :: rest)
                = match q with [] => (true, print_size n ++ TRbrack :: rest)
                  | _ => (false, print_quals q ++ TStatic :: print_size n ++ TRbrack :: rest) end).
    { destruct q; reflexivity. }
    rewrite E. destruct n as [| |e|e]; try discriminate G; try contradiction.
    destruct q as [|x q]; [reflexivity|]. rewrite Q by exact I. reflexivity.
Qed.

(** * Types *)
Lemma array_length_ok : forall s n, good_array s n -> plain_size n -> array_length (kind_of n) = Ok (length_of n).
Proof.
  intros s [| |[sg n|e]|e] G P; try reflexivity; [|contradiction].
  cbn [kind_of array_length length_of]. cbn in G.
  replace (n <=? 0) with false by (symmetry; apply Z.leb_gt; lia).
  rewrite Bool.andb_false_r. f_equal. f_equal. unfold wrap. apply Z.mod_small. exact (conj (Z.lt_le_incl _ _ (proj1 G)) (proj2 G)).
Qed.

Lemma type_s_ok : forall l param t a, good_s tdef param l -> plain_s tdef l ->
  to_type param t (build_s a l) = to_type param (type_s t l) a.
Proof.
  induction l as [|s q n l IH|p l IH]; intros param t a G P; [reflexivity| |].
  - cbn in G, P. destruct G as (GA & GQ & GL), P as (PS & PC & PL).
    cbn [build_s]. rewrite IH by assumption. cbn [to_type DeclaratorSpec.type_s].
    rewrite (array_length_ok s n GA PS). cbn [bind]. destruct param.
    + rewrite apply_array by exact PC. reflexivity.
    + destruct (GQ eq_refl) as [_ ->]. reflexivity.
  - cbn in G, P. destruct G as [GP GL], P as [PP PL].
    cbn [build_s]. rewrite IH by assumption. cbn [to_type]. destruct p; reflexivity.
Qed.

Lemma type_d_ok : forall d param t, good_d tdef param d -> plain_d tdef d ->
  to_type param t (build_d d) = Ok (type_d t d, name_d d).
Proof.
  apply (decl_i
    (fun d => forall param t, good_d tdef param d -> plain_d tdef d ->
       to_type param t (build_d d) = Ok (type_d t d, name_d d))
    (fun c => forall param t, good_c tdef param c -> plain_c tdef c ->
       to_type param t (build_c c) = Ok (type_c t c, name_c c))
    (fun _ => True) (fun _ => True) (fun _ => True)); try (intros; exact I).
  - intros q d IH param t G P. cbn in G, P. destruct P as [PC P].
    cbn [build_d to_type DeclaratorSpec.type_d name_d]. rewrite apply_pointer by exact PC. apply IH; assumption.
  - intros c IH l _ param t G P. cbn in G, P. destruct G as [GC GL], P as [PC PL].
    cbn [build_d DeclaratorSpec.type_d name_d]. rewrite type_s_ok by assumption. apply IH; assumption.
  - reflexivity.
  - reflexivity.
  - intros d IH param t G P. cbn in G, P. apply IH; tauto.
Qed.

Lemma type_opt_ok : forall d param t, good_d tdef param d -> plain_d tdef d ->
  to_type_opt param t (oast d) = Ok (type_d t d, name_d d).
Proof.
  intros d param t G P.
  assert (E : oast d = None /\ d = DDirect CNone SNil \/ oast d = Some (build_d d)).
  { destruct d as [q d|[|s|d] [| |]]; auto. }
  destruct E as [[-> ->]| ->]; [reflexivity|]. apply type_d_ok; assumption.
Qed.

(** * Parsing *)
Lemma spec_first : forall s t rest, spec_types tdef s = [Some t] ->
  starts_typedef tdef (map print_spec s ++ rest) = true \/
  starts_typedef tdef (map print_spec s ++ rest) = false /\
  (forall f h, declarator (S f) h (map print_spec s ++ rest) = ok (None, h, map print_spec s ++ rest)).
Proof.
  intros [|[|n|x|x|n] s] t rest T; try discriminate T; try (right; split; [reflexivity|]; intros; reflexivity).
  left. cbn in T. injection T as T _. cbn [map print_spec app starts_typedef]. rewrite T. reflexivity.
Qed.


Lemma plist_first : forall l rest, good_l tdef l ->
  starts_typedef tdef (print_l l ++ rest) = true \/
  starts_typedef tdef (print_l l ++ rest) = false /\
  (forall f h, declarator (S f) h (print_l l ++ rest) = ok (None, h, print_l l ++ rest)).
Proof.
  intros l rest G. destruct l as [s d|s d l]; cbn [print_l]; rewrite <- app_assoc; cbn in G;
    destruct G as [[[t T] _] _]; exact (spec_first s t _ T).
Qed.

(** The parameters do not look like an empty list. *)
Lemma spec_head : forall s t rest, spec_types tdef s = [Some t] ->
  match map print_spec s ++ rest with TRpar :: _ | [] => False | _ => True end.
Proof. intros [|[|n|x|x|n] s] t rest T; try discriminate T; exact I. Qed.

Lemma d_not_rpar : forall d rest, d <> DDirect CNone SNil ->
  match print_d d ++ rest with TRpar :: _ => False | _ => True end.
Proof.
  intros [q d|[|s|d] [| |]] rest N; try exact I. elim N; reflexivity.
Qed.

Definition dots_toks (dots : bool) : list tok := if dots then [TComma; TEllipsis] else [].

Lemma params_list : forall l dots rest f a h, good_l tdef l -> (dots = false -> ~ lone_void tdef l) ->
  function_parameters (S f) a h (print_l l ++ dots_toks dots ++ TRpar :: rest) =
    (let! r := parameter_list f (print_l l ++ dots_toks dots ++ TRpar :: rest) in
     let '(ps, v, ts) := r in
     ok (AFunction ps v a, keep h ps, ts)).
Proof.
  intros l dots rest f a h G V.
  assert (H : match print_l l ++ dots_toks dots ++ TRpar :: rest with
              | TRpar :: _ => False | TVoid :: TRpar :: _ => False | _ => True end).
  { destruct l as [s d|s d l]; cbn [print_l]; rewrite <- app_assoc; cbn in G.
    - destruct G as [[[t T] _] _]. destruct s as [|[|n|x|x|n] s]; try discriminate T; try exact I.
      cbn [map print_spec app].
      destruct s as [|i s]; [|destruct i; exact I]. cbn [map app].
      assert (D : d = DDirect CNone SNil \/ d <> DDirect CNone SNil).
      { destruct d as [q d|[|x|d] [| |]]; (left; reflexivity) || (right; discriminate). }
      destruct D as [-> |D].
      + destruct dots; [exact I|]. elim (V eq_refl). cbn. exists false. reflexivity.
      + pose proof (d_not_rpar d (dots_toks dots ++ TRpar :: rest) D) as N.
        destruct (print_d d ++ _) as [|[] ?]; exact I || contradiction.
    - destruct G as [[[t T] _] _]. destruct s as [|[|n|x|x|n] s]; try discriminate T; try exact I.
      cbn [map print_spec app].
      destruct s as [|i s]; [|destruct i; exact I]. cbn [map app].
      destruct d as [q d|[|x|d] [| |]]; exact I. }
  destruct (print_l l ++ dots_toks dots ++ TRpar :: rest) as [|[] [|[] ts]]; try contradiction; reflexivity.
Qed.

Theorem parse_all :
  (forall d param h rest, good_d tdef param d -> plain_d tdef d -> follows rest ->
     evs (fun f => declarator f h (print_d d ++ rest)) (oast d, keep_d h d, rest)) /\
  (forall c, match c with
             | CParen d => forall param h rest, good_d tdef param d -> plain_d tdef d -> follows rest ->
                 evs (fun f => declarator f h (print_d d ++ rest)) (oast d, keep_d h d, rest)
             | _ => True
             end) /\
  (forall l param a h rest, good_s tdef param l -> plain_s tdef l -> ends rest ->
     evs (fun f => suffixes f a h (print_s l ++ rest)) (Some (build_s a l), keep_s h l, rest)) /\
  (forall p a h rest, good_p tdef p -> plain_p tdef p ->
     evs (fun f => function_parameters f a h (print_p p ++ TRpar :: rest))
         (AFunction (params_of p) (dots_of p) a, keep_p h p, rest)) /\
  (forall l dots rest, good_l tdef l -> plain_l tdef l ->
     evs (fun f => parameter_list f (print_l l ++ dots_toks dots ++ TRpar :: rest)) (params_l l, dots, rest)).
Proof.
  apply decl_all.
  - (* a pointer *)
    intros q d IH param h rest G P F. cbn in G, P. destruct P as [PC P].
    destruct (IH param h rest G P F) as [f1 H1].
    exists (S (S f1)). intros [|[|f]] L; try lia.
    cbn [print_d app]. rewrite <- app_assoc.
    rewrite (declarator_star _ h _ (addq no_tq q) (print_d d ++ rest))
      by (apply qualifiers_ok, starts_no_qual, print_d_starts, F).
    rewrite H1 by lia. cbn [exbind ok]. rewrite suffixes_end by (apply follows_ends, F).
    cbn [oast build_d keep_d]. f_equal. f_equal. f_equal. f_equal. f_equal. f_equal.
    destruct d as [q' d|[|s|d] [| |]]; reflexivity.
  - (* a direct declarator *)
    intros c IHc l IHl param h rest G P F. cbn in G, P. destruct G as [GC GL], P as [PC PL].
    destruct c as [|s|d].
    + (* nothing *)
      destruct l as [|s q n l|p l].
      * exists 1%nat. intros [|f] L; [lia|]. cbn [print_d print_c print_s app].
        destruct rest as [|[] r]; cbn in F; try contradiction; reflexivity.
      * destruct (IHl param (Term []) h rest GL PL (follows_ends _ F)) as [f1 H1].
        exists (S f1). intros [|f] L; [lia|]. cbn [print_d print_c app]. exact (H1 f ltac:(lia)).
      * (* parameters of an abstract function *)
        cbn in GL, PL. 
        destruct (IHl param (Term []) h rest GL PL (follows_ends _ F)) as [f1 H1].
        exists (S (S (S f1))). intros [|[|f]] L; try lia.
        assert (H2 := H1 (S (S f)) ltac:(lia)). cbn [print_s app] in H2. rewrite suffixes_lpar in H2.
        cbn [print_d print_c app print_s]. rewrite declarator_lpar.
        rewrite <- app_assoc in H2 |- *. cbn [app] in H2 |- *.
        assert (N : starts_typedef tdef (print_p p ++ TRpar :: print_s l ++ rest) = true \/
                    starts_typedef tdef (print_p p ++ TRpar :: print_s l ++ rest) = false /\
                    declarator (S f) h (print_p p ++ TRpar :: print_s l ++ rest)
                      = ok (None, h, print_p p ++ TRpar :: print_s l ++ rest)).
        { destruct p as [| |x|pl dots].
          - right. split; reflexivity.
          - right. split; reflexivity.
          - destruct PL as [[] _].
          - cbn [print_p]. rewrite <- app_assoc.
            destruct (plist_first pl ((if dots then [TComma; TEllipsis] else []) ++ TRpar :: print_s l ++ rest)) as [N|[N1 N2]].
            + exact (proj1 (proj1 GL)).
            + left; exact N.
            + right; split; [exact N1|apply N2]. }
        assert (M : (if starts_typedef tdef (print_p p ++ TRpar :: print_s l ++ rest)
                     then ok (None, h, print_p p ++ TRpar :: print_s l ++ rest)
                     else declarator (S f) h (print_p p ++ TRpar :: print_s l ++ rest))
                    = ok (None, h, print_p p ++ TRpar :: print_s l ++ rest)).
        { destruct N as [-> |[-> ->]]; reflexivity. }
        rewrite M. cbn [exbind ok oast]. exact H2.
    + (* a name *)
      destruct (IHl param (Term s) h rest GL PL (follows_ends _ F)) as [f1 H1].
      exists (S f1). intros [|f] L; [lia|]. cbn [print_d print_c app]. exact (H1 f ltac:(lia)).
    + (* parentheses *)
      cbn in GC, PC. destruct GC as [GN GD], PC as [PT PD].
      destruct (IHc param h (TRpar :: print_s l ++ rest) GD PD I) as [f1 H1].
      destruct (IHl param (build_d d) (keep_d h d) rest GL PL (follows_ends _ F)) as [f2 H2].
      exists (S (Nat.max f1 f2)). intros [|f] L; [lia|].
      cbn [print_d print_c app]. rewrite <- !app_assoc. cbn [app]. rewrite declarator_lpar.
      assert (T : starts_typedef tdef (print_d d ++ TRpar :: print_s l ++ rest) = false).
      { destruct (print_d d) as [|t ts] eqn:E; [reflexivity|].
        cbn [app starts_typedef]. destruct t; try reflexivity. cbn in PT.
        destruct (tdef s); [elim PT; discriminate|reflexivity]. }
      rewrite T, H1 by lia. cbn [exbind ok].
      assert (O : oast d = Some (build_d d)).
      { destruct d as [q d|[|s|d] [| |]]; try reflexivity. elim GN; reflexivity. }
      rewrite O. rewrite H2 by lia. reflexivity.
  - exact I.
  - intros; exact I.
  - intros d IH. exact IH.
  - (* no suffix *)
    intros param a h rest _ _ E. exists 1%nat. intros [|f] L; [lia|]. cbn [print_s app].
    apply suffixes_end, E.
  - (* an array *)
    intros s q n l IH param a h rest G P E. cbn in G, P. destruct G as (GA & _ & GL), P as (PS & PC & PL).
    destruct (IH param (AArray (kind_of n) (addq no_tq q) a) h rest GL PL E) as [f1 H1].
    exists (S f1). intros [|f] L; [lia|]. cbn [print_s app]. rewrite suffixes_lbrack.
    rewrite <- app_assoc. cbn [app]. rewrite (array_ok s q n _ GA PS). rewrite H1 by lia. reflexivity.
  - (* a parameter list *)
    intros p IHp l IHl param a h rest G P E. cbn in G, P. destruct G as [GP GL], P as [PP PL].
    destruct (IHp a h (print_s l ++ rest) GP PP) as [f1 H1].
    destruct (IHl param (AFunction (params_of p) (dots_of p) a) (keep_p h p) rest GL PL E) as [f2 H2].
    exists (S (Nat.max f1 f2)). intros [|f] L; [lia|]. cbn [print_s app]. rewrite suffixes_lpar.
    rewrite <- app_assoc. cbn [app]. rewrite H1 by lia. cbn [exbind ok]. rewrite H2 by lia. reflexivity.
  - intros a h rest _ _. exists 1%nat. intros [|f] L; [lia|]. reflexivity.
  - intros a h rest _ _. exists 1%nat. intros [|f] L; [lia|]. reflexivity.
  - intros s a h rest _ [].
  - intros l IH dots a h rest G P. cbn in G, P. destruct G as [GL GV].
    destruct (IH dots rest GL P) as [f1 H1]. exists (S f1). intros [|f] L; [lia|].
    cbn [print_p]. rewrite <- app_assoc. change (if dots then [TComma; TEllipsis] else []) with (dots_toks dots).
    rewrite params_list by assumption. rewrite H1 by lia. reflexivity.
  - (* the last parameter *)
    intros s d IH dots rest G P. cbn in G, P. destruct G as [[[u T] NA] GD], P as [PS PD].
    assert (F : follows (dots_toks dots ++ TRpar :: rest)) by (destruct dots; exact I).
    destruct (IH true None (dots_toks dots ++ TRpar :: rest) GD PD F) as [f1 H1].
    exists (S (S f1)). intros [|[|f]] L; try lia. cbn [print_l]. rewrite <- app_assoc, parameter_list_S.
    rewrite (specifiers_ok s false u no_tq _ T NA) by (apply starts_no_spec, print_d_starts, F).
    rewrite H1 by lia. cbn [exbind ok]. rewrite (base_ok s u T PS). cbn [bind].
    rewrite type_opt_ok by assumption. rewrite adjust_ok. destruct dots; reflexivity.
  - (* a parameter and more *)
    intros s d IHd l IHl dots rest G P. cbn in G, P. destruct G as ([[u T] NA] & GD & GL), P as (PS & PD & PL).
    destruct (IHd true None (TComma :: print_l l ++ dots_toks dots ++ TRpar :: rest) GD PD I) as [f1 H1].
    destruct (IHl dots rest GL PL) as [f2 H2].
    exists (S (Nat.max f1 f2)). intros [|f] L; try lia. cbn [print_l]. rewrite <- !app_assoc. cbn [app].
    rewrite parameter_list_S.
    rewrite (specifiers_ok s false u no_tq _ T NA) by (apply starts_no_spec, print_d_starts, I).
    rewrite H1 by lia. cbn [exbind ok]. rewrite (base_ok s u T PS). cbn [bind].
    rewrite type_opt_ok by assumption. cbn [exbind ok]. rewrite H2 by lia. cbn [exbind ok].
    rewrite adjust_ok. reflexivity.
Qed.
End Names.

(** * Declarations *)
Section Declarations.
Variable tdef : list Z -> option ty.

Lemma parse_d : forall d param h rest, good_d tdef param d -> plain_d tdef d -> follows rest ->
  evs (fun f => declarator tdef f h (print_d d ++ rest)) (oast tdef d, keep_d tdef h d, rest).
Proof. exact (proj1 (parse_all tdef)). Qed.

Lemma named_oast : forall d, name_d d <> [] -> oast tdef d = Some (build_d tdef d).
Proof. intros [q d|[|s|d] [| |]] N; try reflexivity. elim N; reflexivity. Qed.


Definition init_S f b toks : init_declarators tdef (S f) b toks =
      (let! r := declarator tdef f (Some None) toks in
      let '(o, h, ts) := r in
      match o with
      | None =>
          match ts with TSemi :: ts' => ok ([], None, ts') | _ => Some Fail end
      | Some a =>
          let! (t, name) := Some (let* b := b in to_type false b a) in
          match name with
          | [] => Some Fail
          | _ =>
              match ts with
              | TLbrace :: _ =>
                  let! ps := Some (get_parameters a) in
                  ok ([(name, t)],
                      Some {| f_params := ps;
                              f_visible := match h with Some (Some l) => l | _ => [] end |}, ts)
              | _ =>
                  let! r := init_declarators tdef f b
                              match ts with TComma :: ts' => ts' | _ => ts end in
                  let '(l, d, rest) := r in
                  ok ((name, t) :: l, d, rest)
              end
          end
      end) := eq_refl.

Definition entry (b : ty) (d : decl) : list Z * ty := (name_d d, type_d tdef b d).

Lemma init_ok : forall b ds rest,
  (forall d, In d ds -> good_d tdef false d /\ plain_d tdef d /\ name_d d <> []) ->
  evs (fun f => init_declarators tdef f (Ok b) (print_ds ds ++ TSemi :: rest)) (map (entry b) ds, None, rest).
Proof.
  intros b ds rest. induction ds as [|d ds IH]; intros A.
  - exists 2%nat. intros [|[|f]] L; try lia. reflexivity.
  - destruct (A d (or_introl eq_refl)) as (G & P & N).
    destruct IH as [f2 H2]; [intros x I; apply A; right; exact I|].
    assert (E : exists tail, print_ds (d :: ds) ++ TSemi :: rest = print_d d ++ tail /\ follows tail /\
                (match tail with TLbrace :: _ => False | _ => True end) /\
                match tail with TComma :: ts' => ts' | _ => tail end = print_ds ds ++ TSemi :: rest).
    { destruct ds as [|d' ds].
      - exists (TSemi :: rest). cbn [print_ds]. repeat split.
      - exists (TComma :: print_ds (d' :: ds) ++ TSemi :: rest). 
        change (print_ds (d :: d' :: ds)) with (print_d d ++ TComma :: print_ds (d' :: ds)).
        rewrite <- app_assoc. repeat split. }
    destruct E as (tail & E & F & NB & TL). rewrite E.
    destruct (parse_d d false (Some None) tail G P F) as [f1 H1].
    exists (S (Nat.max f1 f2)). intros [|f] L; [lia|]. rewrite init_S, H1 by lia. cbn [exbind ok].
    rewrite named_oast by exact N. cbn [bind]. rewrite (type_d_ok tdef d false b G P). cbn [exbind].
    rewrite <- TL in H2.
    destruct (name_d d) as [|x xs] eqn:EN; [elim N; reflexivity|].
    destruct tail as [|[] tail]; try contradiction; rewrite H2 by lia;
      cbn [exbind ok map]; unfold entry at 2; rewrite EN; reflexivity.
Qed.

(** ** Definitions of functions *)
Lemma get_build_s : forall l a, (forall s, a <> Term s) ->
  get_parameters (build_s tdef a l) = get_parameters a.
Proof.
  induction l as [|s q n l IH|p l IH]; intros a N; [reflexivity| |].
  - cbn [build_s]. rewrite IH by discriminate. reflexivity.
  - cbn [build_s]. rewrite IH by discriminate. cbn [get_parameters]. destruct a; try reflexivity. elim (N s); reflexivity.
Qed.

Definition near_ok (o : option (option params)) (a : ast) : Prop :=
  match o with
  | None => exists s, a = Term s
  | Some None => forall s, a <> Term s
  | Some (Some p) => (forall s, a <> Term s) /\ get_parameters a = Ok (params_of tdef p)
  end.

Lemma build_s_not : forall l a s, (forall s, a <> Term s) -> build_s tdef a l <> Term s.
Proof. induction l as [|s q n l IH|p l IH]; intros a s0 N; [apply N| |]; cbn [build_s]; apply IH; discriminate. Qed.

Lemma near_build : forall d, near_ok (near_d d) (build_d tdef d).
Proof.
  apply (decl_i (fun d => near_ok (near_d d) (build_d tdef d)) (fun c => near_ok (near_c c) (build_c tdef c))
    (fun _ => True) (fun _ => True) (fun _ => True)); try (intros; exact I).
  - intros q d IH. cbn [near_d build_d]. destruct (near_d d) as [[p|]|]; cbn [or_else near_ok] in IH |- *.
    + destruct IH as [_ IH]. split; [discriminate|]. exact IH.
    + discriminate.
    + discriminate.
  - intros c IH l _.
    change (build_d tdef (DDirect c l)) with (build_s tdef (build_c tdef c) l).
    change (near_d (DDirect c l)) with
      (or_else (near_c c) match l with SNil => None | SArray _ _ _ _ => Some None | SFunction p _ => Some (Some p) end).
    destruct (near_c c) as [[p|]|]; cbn [or_else near_ok] in IH |- *.
    + destruct IH as [N E]. split; [intros s; apply build_s_not, N|]. rewrite get_build_s by exact N. exact E.
    + intros s. apply build_s_not, IH.
    + destruct IH as [s E]. rewrite E. destruct l as [|s' q n l|p l]; cbn [build_s near_ok].
      * exists s; reflexivity.
      * intros s0. apply build_s_not. discriminate.
      * split; [intros s0; apply build_s_not; discriminate|]. rewrite get_build_s by discriminate. reflexivity.
  - exists []; reflexivity.
  - intros s. exists s; reflexivity.
  - intros d IH. exact IH.
Qed.

Lemma keep_s_some : forall l n, keep_s tdef (Some (Some n)) l = Some (Some n).
Proof. induction l as [|s q m l IH|[| | |pl dots] l IH]; intros n; cbn; auto. Qed.

Lemma keep_s_none : forall l, lists_s l = false -> keep_s tdef (Some None) l = Some None.
Proof. induction l as [|s q m l IH|[| | |pl dots] l IH]; cbn; auto. discriminate. Qed.

Lemma keep_none : forall d, lists_d d = false -> keep_d tdef (Some None) d = Some None.
Proof.
  apply (decl_i (fun d => lists_d d = false -> keep_d tdef (Some None) d = Some None)
    (fun c => lists_c c = false -> keep_c tdef (Some None) c = Some None)
    (fun _ => True) (fun _ => True) (fun _ => True)); try (intros; exact I); try (intros; reflexivity).
  - intros q d IH. exact IH.
  - intros c IH l _ E. apply Bool.orb_false_iff in E. destruct E as [E1 E2].
    change (keep_d tdef (Some None) (DDirect c l)) with (keep_s tdef (keep_c tdef (Some None) c) l).
    rewrite IH by exact E1. apply keep_s_none, E2.
  - intros d IH. exact IH.
Qed.

(** The list next to the name is the one whose scope stays open. *)
Lemma keep_near : forall d,
  match near_d d with
  | Some (Some (PList l _)) => keep_d tdef (Some None) d = Some (Some (map fst (params_l tdef l)))
  | None => keep_d tdef (Some None) d = Some None
  | _ => True
  end.
Proof.
  apply (decl_i
    (fun d => match near_d d with
              | Some (Some (PList l _)) => keep_d tdef (Some None) d = Some (Some (map fst (params_l tdef l)))
              | None => keep_d tdef (Some None) d = Some None
              | _ => True
              end)
    (fun c => match near_c c with
              | Some (Some (PList l _)) => keep_c tdef (Some None) c = Some (Some (map fst (params_l tdef l)))
              | None => keep_c tdef (Some None) c = Some None
              | _ => True
              end)
    (fun _ => True) (fun _ => True) (fun _ => True)); try (intros; exact I).
  - intros q d IH. cbn [near_d keep_d]. destruct (near_d d) as [[[| | |l dots]|]|]; cbn [or_else]; auto.
  - intros c IH l _.
    change (keep_d tdef (Some None) (DDirect c l)) with (keep_s tdef (keep_c tdef (Some None) c) l).
    change (near_d (DDirect c l)) with
      (or_else (near_c c) match l with SNil => None | SArray _ _ _ _ => Some None | SFunction p _ => Some (Some p) end).
    destruct (near_c c) as [[[| | |pl dots]|]|]; cbn [or_else]; try exact I.
    + rewrite IH. apply keep_s_some.
    + rewrite IH. destruct l as [|s q n l|[| | |pl dots] l]; try exact I; [reflexivity|].
      cbn [keep_s keep_p keep]. apply keep_s_some.
  - reflexivity.
  - reflexivity.
  - intros d IH. exact IH.
Qed.
End Declarations.
