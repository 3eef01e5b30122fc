(** Proofs for C80. *)
From Coq Require Import String.
From Verif Require Import Base CharTypes Arguments ArgumentsSpec Driver DriverSpec.
Local Open Scope Z_scope.
Local Open Scope list_scope.

Lemma same_textP a b : same_text a b = true <-> a = b.
Proof. unfold same_text. destruct (list_eq_dec Z.eq_dec a b); split; congruence. Qed.
Lemma same_text_false a b : a <> b -> same_text a b = false.
Proof. unfold same_text. destruct (list_eq_dec Z.eq_dec a b); congruence. Qed.

(** ** Names *)
Lemma base_plain q cur : ~ In 47 q -> base_from q cur = cur.
Proof.
  revert cur. induction q as [|c q IH]; intros cur H; [reflexivity|]. cbn [base_from]. destruct (Z.eqb_spec c 47) as [->|N]; [exfalso; apply H; left; reflexivity|].
  apply IH. intros I. apply H. right. exact I.
Qed.
Lemma base_dir d q cur : ~ In 47 q -> base_from (d ++ 47 :: q) cur = q.
Proof.
  intros H. revert cur. induction d as [|c d IH]; intros cur; cbn [app base_from].
  - cbn. apply base_plain. exact H.
  - destruct (c =? 47); apply IH.
Qed.
Lemma stem_base p b : stem p b -> get_basename p = b ++ chars ".c".
Proof.
  intros (dir & -> & D & N). assert (N' : ~ In 47 (b ++ chars ".c")).
  { intros I. apply in_app_iff in I. destruct I as [I|I]; [contradiction|]. cbn in I. intuition discriminate. }
  unfold get_basename. destruct D as [->|(d & ->)].
  - cbn [app]. apply base_plain. exact N'.
  - rewrite <- app_assoc. change (chars "/") with [47]. cbn [app]. apply base_dir. exact N'.
Qed.
Lemma stem_cut b : firstn (length (b ++ chars ".c") - 2) (b ++ chars ".c") = b.
Proof. rewrite app_length. cbn [length chars]. change (length (chars ".c")) with 2%nat. rewrite Nat.add_sub, firstn_app, Nat.sub_diag, firstn_O, app_nil_r. apply firstn_all. Qed.
Lemma ext_two s c ext : is_ext_file (s ++ [46; c]) ext = Ok (c =? ext).
Proof. unfold is_ext_file. rewrite rev_app_distr. cbn [rev app]. rewrite Z.eqb_refl. reflexivity. Qed.
Lemma ext_source p : source p -> is_ext_file p 99 = Ok true /\ is_ext_file p 111 = Ok false.
Proof. intros (s & ->). change (chars ".c") with [46; 99]. rewrite !ext_two. split; reflexivity. Qed.
Lemma ext_object p : object p -> is_ext_file p 99 = Ok false /\ is_ext_file p 111 = Ok true.
Proof. intros (s & ->). change (chars ".o") with [46; 111]. rewrite !ext_two. split; reflexivity. Qed.
Lemma dep_path s out : s <> [] -> out = s ++ chars ".o" \/ out = s ++ chars ".s" -> dependency_path_from_outfile out = Some (s ++ chars ".d").
Proof.
  intros N E. unfold dependency_path_from_outfile.
  assert (L : Nat.leb (length out) 2 = false).
  { apply Nat.leb_gt. destruct E as [-> | ->]; rewrite app_length; destruct s; try congruence; cbn; lia. }
  rewrite L. destruct E as [-> | ->]; rewrite rev_app_distr; cbn; rewrite rev_involutive; reflexivity.
Qed.

(** ** Switches *)
Lemma saidP p l : existsb (is_plain p) l = true <-> said p l.
Proof.
  unfold said. rewrite existsb_exists. split.
  - intros (i & I & E). destruct i as [|q| | | |]; try discriminate. destruct q, p; try discriminate; exact I.
  - intros I. exists (Plain p). split; [exact I|]. destruct p; reflexivity.
Qed.
Lemma said_false p l : ~ said p l -> existsb (is_plain p) l = false.
Proof. intros N. destruct (existsb (is_plain p) l) eqn:E; [|reflexivity]. exfalso. apply N, saidP. exact E. Qed.

(** ** Settings *)
Lemma fold_last {A} (f : A -> text -> A) (get : A -> bool) yes no :
  (forall a, get (f a yes) = true) -> (forall a, get (f a no) = false) -> yes <> no -> (forall a x, x <> yes -> x <> no -> get (f a x) = get a) ->
  forall l a, get a = false -> (get (fold_left f l a) = true <-> last_wins yes no l).
Proof.
  intros Y N D O l a Ha. induction l as [|x l IH] using rev_ind.
  - cbn. rewrite Ha. split; [discriminate|]. intros (u & v & E & _). destruct u; discriminate.
  - rewrite fold_left_app. cbn [fold_left]. destruct (list_eq_dec Z.eq_dec x yes) as [->|N1].
    + rewrite Y. split; [intros _|reflexivity]. exists l, []. split; [reflexivity|intros []].
    + destruct (list_eq_dec Z.eq_dec x no) as [->|N2].
      * rewrite N. split; [discriminate|]. intros (u & v & E & F). exfalso. destruct v as [|y v] using rev_ind.
        -- apply app_inj_tail in E. destruct E as [_ E]. congruence.
        -- clear IHv. rewrite app_comm_cons, app_assoc in E. apply app_inj_tail in E. destruct E as [_ E]. apply F. rewrite <- E. apply in_or_app. right. left. reflexivity.
      * rewrite O by assumption. rewrite IH. split; intros (u & v & E & F).
        -- exists u, (v ++ [x]). split; [rewrite E, <- app_assoc; reflexivity|]. intros I. apply in_app_iff in I. destruct I as [I|[I|[]]]; [contradiction|congruence].
        -- destruct v as [|y v] using rev_ind; [apply app_inj_tail in E; destruct E; congruence|]. clear IHv. rewrite app_comm_cons, app_assoc in E. apply app_inj_tail in E.
           destruct E as [E _]. exists u, v. split; [exact E|]. intros I. apply F. apply in_or_app. left. exact I.
Qed.
Lemma fold_once {A} (f : A -> text -> A) (get : A -> bool) yes :
  (forall a, get (f a yes) = true) -> (forall a x, x <> yes -> get (f a x) = get a) -> forall l a, get a = false -> (get (fold_left f l a) = true <-> In yes l).
Proof.
  intros Y O l a Ha. induction l as [|x l IH] using rev_ind; [cbn; rewrite Ha; split; [discriminate|intros []]|].
  rewrite fold_left_app, in_app_iff. cbn [fold_left In]. destruct (list_eq_dec Z.eq_dec x yes) as [->|N]; [rewrite Y; tauto|]. rewrite O by exact N. rewrite IH. tauto.
Qed.
Definition is_ms (s : abi * code_model * bool) : bool := match fst (fst s) with Microsoft => true | Sysv => false end.
Definition is_large (s : abi * code_model * bool) : bool := match snd (fst s) with Large => true | Small => false end.
Lemma flag_cases (P : abi * code_model * bool -> Prop) s x :
  (x = chars "cmodel=small" -> P (let '(a, m, w) := s in (a, Small, w))) -> (x = chars "cmodel=large" -> P (let '(a, m, w) := s in (a, Large, w))) ->
  (x = chars "abi=ms" -> P (let '(a, m, w) := s in (Microsoft, m, w))) -> (x = chars "abi=sysv" -> P (let '(a, m, w) := s in (Sysv, m, w))) ->
  (x = chars "mingw-workarounds" -> P (let '(a, m, w) := s in (a, m, true))) -> (x <> chars "cmodel=small" -> x <> chars "cmodel=large" -> x <> chars "abi=ms" -> x <> chars "abi=sysv" -> x <> chars "mingw-workarounds" -> P s) ->
  P (set_flag s x).
Proof.
  intros H1 H2 H3 H4 H5 H6. destruct s as [[a m] w]. unfold set_flag.
  destruct (same_text x (chars "cmodel=small")) eqn:E1; [apply same_textP in E1; auto|].
  destruct (same_text x (chars "cmodel=large")) eqn:E2; [apply same_textP in E2; auto|].
  assert (F : forall y, same_text x y = false -> x <> y) by (intros y E ->; rewrite (proj2 (same_textP y y) eq_refl) in E; discriminate).
  destruct (same_text (firstn 16 x) (chars "debug-stack-size")) eqn:E0.
  { apply same_textP in E0. apply H6; try (apply F; assumption); intros ->; discriminate. }
  destruct (same_text x (chars "abi=ms")) eqn:E3; [apply same_textP in E3; auto|].
  destruct (same_text x (chars "abi=sysv")) eqn:E4; [apply same_textP in E4; auto|].
  destruct (same_text x (chars "mingw-workarounds")) eqn:E5; [apply same_textP in E5; auto|].
  apply H6; apply F; assumption.
Qed.
Lemma abi_chosen l : is_ms (fold_left set_flag l (Sysv, Small, false)) = true <-> last_wins (chars "abi=ms") (chars "abi=sysv") l.
Proof.
  apply fold_last; [| |discriminate| |reflexivity].
  - intros [[a m] w]. reflexivity.
  - intros [[a m] w]. reflexivity.
  - intros s x N1 N2. apply (flag_cases (fun t => is_ms t = is_ms s)); intros; try contradiction; destruct s as [[? ?] ?]; reflexivity.
Qed.
Lemma model_chosen l : is_large (fold_left set_flag l (Sysv, Small, false)) = true <-> last_wins (chars "cmodel=large") (chars "cmodel=small") l.
Proof.
  apply fold_last; [| |discriminate| |reflexivity].
  - intros [[a m] w]. reflexivity.
  - intros [[a m] w]. reflexivity.
  - intros s x N1 N2. apply (flag_cases (fun t => is_large t = is_large s)); intros; try contradiction; destruct s as [[? ?] ?]; reflexivity.
Qed.
Lemma mingw_chosen l : snd (fold_left set_flag l (Sysv, Small, false)) = true <-> In (chars "mingw-workarounds") l.
Proof.
  apply (fold_once set_flag snd); [| |reflexivity].
  - intros [[a m] w]. reflexivity.
  - intros s x N1. apply (flag_cases (fun t => snd t = snd s)); intros; try contradiction; destruct s as [[? ?] ?]; reflexivity.
Qed.

(** ** Macros *)
Lemma splitP s : let (n, v) := split_at_equals s in ~ In 61 n /\ match v with Some v => s = n ++ chars "=" ++ v | None => s = n end.
Proof.
  induction s as [|c s IH]; cbn [split_at_equals]; [split; [intros []|reflexivity]|]. destruct (Z.eqb_spec c 61) as [->|N].
  - split; [intros []|reflexivity].
  - destruct (split_at_equals s) as [n v]. destruct IH as [H1 H2]. split; [intros [E|I]; [congruence|contradiction]|]. destruct v; rewrite H2 at 1; reflexivity.
Qed.
Lemma split_unique n v n' v' : ~ In 61 n -> ~ In 61 n' -> n ++ 61 :: v = n' ++ 61 :: v' -> n = n' /\ v = v'.
Proof.
  revert n'. induction n as [|c n IH]; intros [|c' n'] H H' E; cbn [app] in E.
  - injection E as E. auto.
  - injection E as E1 E2. exfalso. apply H'. left. congruence.
  - injection E as E1 E2. exfalso. apply H. left. congruence.
  - injection E as E1 E2. destruct (IH n' (fun i => H (or_intror i)) (fun i => H' (or_intror i)) E2) as [-> ->]. subst. auto.
Qed.
Lemma saysP s n v : says s n v <-> add_definition s = DefineMacro n v.
Proof.
  unfold add_definition. pose proof (splitP s) as P. destruct (split_at_equals s) as [n0 v0]. destruct P as [N E]. split.
  - intros (Nn & [H|[H1 H2]]).
    + change (chars "=" ++ v) with (61 :: v) in H. destruct v0 as [v0|].
      * change (chars "=" ++ v0) with (61 :: v0) in E. rewrite E in H. destruct (split_unique _ _ _ _ N Nn H) as [-> ->]. reflexivity.
      * exfalso. apply N. rewrite <- E, H. apply in_or_app. right. left. reflexivity.
    + subst. destruct v0 as [v0|]; [exfalso; apply Nn; rewrite E; apply in_or_app; right; left; reflexivity|]. rewrite E. reflexivity.
  - intros H. injection H as <- <-. split; [exact N|]. destruct v0; auto.
Qed.
Lemma app_two {A} (u v a b : list A) : u ++ v = a ++ b -> (exists m, u = a ++ m /\ b = m ++ v) \/ (exists m, a = u ++ m /\ v = m ++ b).
Proof.
  revert a. induction u as [|x u IH]; intros a E; [right; exists a; auto|]. destruct a as [|y a]; [left; exists (x :: u); auto|].
  cbn [app] in E. injection E as -> E. destruct (IH a E) as [(m & -> & ->)|(m & -> & ->)]; [left|right]; exists m; auto.
Qed.
(** Later operations on other names do not matter. *)
Lemma defined_app ops r n v : Forall (fun op => ~ about n op) r -> (defined_as (ops ++ r) n v <-> defined_as ops n v).
Proof.
  intros F. split.
  - intros (u & q & E & Q). destruct (app_two _ _ _ _ E) as [(m & E1 & E2)|(m & E1 & E2)].
    + destruct m as [|x m].
      * cbn in E2. exfalso. rewrite <- E2 in F. apply Forall_inv in F. apply F. reflexivity.
      * cbn [app] in E2. injection E2 as <- ->. apply Forall_app in Q. exists u, m. split; [exact E1|tauto].
    + exfalso. subst r. apply Forall_app in F. destruct F as [_ F]. apply Forall_inv in F. apply F. reflexivity.
  - intros (u & q & -> & Q). exists u, (q ++ r). split; [rewrite <- app_assoc; reflexivity|]. apply Forall_app. split; assumption.
Qed.
Lemma removed ops us n v : In n us -> ~ defined_as (ops ++ map RemoveMacro us) n v.
Proof.
  intros I (u & q & E & Q). assert (J : In (RemoveMacro n) q).
  { destruct (app_two _ _ _ _ E) as [(m & E1 & E2)|(m & E1 & E2)].
    - destruct m as [|x m]; cbn [app] in E2.
      + exfalso. symmetry in E2. destruct us; discriminate.
      + injection E2 as _ ->. apply in_or_app. right. apply in_map. exact I.
    - exfalso. assert (K : In (DefineMacro n v) (map RemoveMacro us)) by (rewrite E2; apply in_or_app; right; left; reflexivity).
      apply in_map_iff in K. destruct K as (? & K & _). discriminate. }
  rewrite Forall_forall in Q. apply (Q _ J). reflexivity.
Qed.
Lemma removes_others us n : ~ In n us -> Forall (fun op => ~ about n op) (map RemoveMacro us).
Proof. intros N. apply Forall_forall. intros op I E. apply in_map_iff in I. destruct I as (m & <- & I). cbn in E. subst. contradiction. Qed.
Lemma defines_others ds n : (forall s v, In s ds -> ~ says s n v) -> Forall (fun op => ~ about n op) (map add_definition ds).
Proof.
  intros N. apply Forall_forall. intros op I E. apply in_map_iff in I. destruct I as (s & <- & I).
  unfold add_definition in E. pose proof (saysP s) as P. destruct (split_at_equals s) as [n0 v0] eqn:Q. cbn in E. subst n0.
  eapply (N s); [exact I|]. apply P. unfold add_definition. rewrite Q. reflexivity.
Qed.
Lemma macros_given initial l ds us : ds = values VDefine l -> us = values VUndefine l ->
  macros_for initial l (initial ++ map add_definition ds ++ map RemoveMacro us).
Proof.
  intros -> ->. rewrite app_assoc. split; [|split].
  - intros n v I. apply removed. exact I.
  - intros n v u s r N E S O. apply defined_app; [apply removes_others; exact N|]. rewrite E, map_app. cbn [map]. apply saysP in S. rewrite S.
    exists (initial ++ map add_definition u), (map add_definition r). split; [rewrite <- app_assoc; reflexivity|]. apply defines_others. exact O.
  - intros n v N O. rewrite defined_app by (apply removes_others; exact N). apply defined_app. apply defines_others. exact O.
Qed.
Lemma settings_given date time l a : stands_for l a -> settings_for (predefined date time) l (current date time a).
Proof.
  intros (H1 & H2 & H3 & H4 & H5 & H6 & H7 & H8 & H9 & H10 & H11 & H12 & H13 & H14 & H15 & H16 & H17).
  unfold current, chosen. rewrite H13. pose proof (abi_chosen (values VFeature l)) as A. pose proof (model_chosen (values VFeature l)) as M. pose proof (mingw_chosen (values VFeature l)) as W.
  destruct (fold_left set_flag (values VFeature l) (Sysv, Small, false)) as [[ab m] mw]. unfold is_ms, is_large in *. cbn [fst snd] in *.
  split; cbn [s_abi s_model s_mingw s_includes s_macros].
  - rewrite <- A. destruct ab; split; congruence.
  - rewrite <- M. destruct mw, m; intuition congruence.
  - exact W.
  - rewrite H10. reflexivity.
  - apply macros_given; assumption.
Qed.

(** ** The files *)
Section Run.
Variables (w : tools) (date time : text) (l : list item) (a : arguments).
Hypothesis Stands : stands_for l a.
Let set := current date time a.
Hypothesis Work : all_work w set l.

Lemma deps_run p out e : dependencies l p out e ->
  (forall X (f : list effect -> X) (u : X), (if flag_MD a then
    match match mf_path a with Some m => Some m | None => dependency_path_from_outfile out end with
    | None => u
    | Some m => f [DependencyFile m match mt_path a with Some t => t | None => out end p]
    end else f []) = f e).
Proof.
  intros D X f u. destruct Stands as (H1 & H2 & H3 & H4 & H5 & H6 & H7 & H8 & H9 & H10 & H11 & H12 & H13 & H14 & H15 & H16 & H17).
  rewrite H6. destruct D as [(Sd & m & t & -> & T & M)|(Sd & ->)].
  - apply saidP in Sd. rewrite Sd, H16, H17. destruct (last_of (values VDepTarget l)); subst t;
      (destruct (last_of (values VDepFile l)); [subst m; reflexivity|]; destruct M as (s & N & O & ->); rewrite (dep_path s out N O); reflexivity).
  - rewrite (said_false _ _ Sd). reflexivity.
Qed.
Definition clean (lo : left_over) : Prop := lo = {| earlier := []; pack_freed := false |}.
Definition leaves (p : text) : left_over := {| earlier := if has_data w set p then [p] else []; pack_freed := pushes w set p |}.
Definition harmless (p : text) : Prop := has_data w set p = false /\ pushes w set p = false.
Lemma leaves_clean p : harmless p -> clean (leaves p).
Proof. intros [H1 H2]. unfold clean, leaves. rewrite H1, H2. reflexivity. Qed.
Lemma compile_run lo p out e : clean lo -> In p (files l) -> output_of a p = out -> dependencies l p out e ->
  compile_file w date time a lo p =
   ((if flag_S a then [AssemblyFile out p [] set] else []) ++ (if flag_c a then [ObjectFile (s_abi set) out (if flag_S a then None else Some (p, [])) set] else []) ++ e,
    if flag_c a || flag_S a then [] else [FromSource p [] set], leaves p, Ok tt).
Proof.
  intros -> I O D. unfold compile_file. fold set. destruct (proj1 Work p I) as (_ & C & _). rewrite C. cbn [negb]. rewrite O. cbv zeta. cbn [earlier pack_freed app]. fold (leaves p).
  set (fs := (if flag_S a then _ else _) ++ _). set (ob := if flag_c a || flag_S a then _ else _).
  pose proof (deps_run p out e D _ (fun d => (fs ++ d, ob, leaves p, Ok tt)) (fs, ob, leaves p, Undef)) as R. cbv beta in R. rewrite app_nil_r in R. rewrite R. unfold fs. rewrite <- app_assoc. reflexivity.
Qed.
Lemma flags_of : flag_E a = existsb (is_plain PPreprocess) l /\ flag_S a = existsb (is_plain PAssembly) l /\ flag_c a = existsb (is_plain PCompile) l /\ flag_s a = existsb (is_plain PStrip) l /\
  operands a = files l /\ outfile a = last_of (values VOut l) /\ undefines a = values VUndefine l.
Proof. destruct Stands as (H1 & H2 & H3 & H4 & H5 & H6 & H7 & H8 & H9 & H10 & H11 & H12 & H13 & H14 & H15 & H16 & H17). repeat split; assumption. Qed.

(** Operands, one after the other. *)
Lemma operands_each (P : text -> list effect -> Prop) : (flag_E a = true \/ nothing_left w set l) -> (forall p e, P p e -> source p) ->
  (forall lo p e, clean lo -> In p (files l) -> P p e -> exists lo', operand_run w date time a lo p = (e, [], lo', Ok tt) /\ (flag_E a = true \/ harmless p -> clean lo')) ->
  forall ps es, each P ps es -> forall u, files l = u ++ ps -> forall lo obs, (ps <> [] -> clean lo) -> operands_run w date time a ps lo obs = (es, Ok obs).
Proof.
  intros NL Src H ps es E. induction E as [|p r e es Pp E IH]; intros u U lo obs CL; [reflexivity|]. cbn [operands_run].
  destruct (H lo p e (CL ltac:(discriminate))) as (lo' & -> & C'); [rewrite U; apply in_or_app; right; left; reflexivity|exact Pp|].
  rewrite app_nil_r. rewrite (IH (u ++ [p])); [reflexivity|rewrite U, <- app_assoc; reflexivity|].
  intros NR. apply C'. destruct NL as [NL|NL]; [left; exact NL|right]. apply (NL u p r U (Src _ _ Pp)).
  destruct E as [|q r e' es Pq E]; [congruence|]. exists q. split; [left; reflexivity|exact (Src _ _ Pq)].
Qed.
Lemma operands_linked out ps : nothing_left w set l -> flag_E a = false -> flag_S a = false -> flag_c a = false ->
  out = match outfile a with Some o => o | None => chars "a.out" end ->
  forall es is, linked l set out ps es is -> forall u, files l = u ++ ps -> forall lo obs, ((exists q, In q ps /\ source q) -> clean lo) -> operands_run w date time a ps lo obs = (es, Ok (obs ++ is)).
Proof.
  intros NL FE FS FC EO es is L. induction L as [|p r e es is Sp D L IH|p r es is Op L IH]; intros u U lo obs CL; cbn [operands_run].
  - rewrite app_nil_r. reflexivity.
  - unfold operand_run. destruct (ext_source p Sp) as [-> ->]. rewrite FE.
    rewrite (compile_run lo p out e); [|apply CL; exists p; split; [left; reflexivity|exact Sp]|rewrite U; apply in_or_app; right; left; reflexivity|unfold output_of; rewrite FS, FC; symmetry; exact EO|exact D].
    rewrite FS, FC. cbn [orb app]. rewrite (IH (u ++ [p])); [rewrite <- app_assoc; reflexivity|rewrite U, <- app_assoc; reflexivity|].
    intros Q. apply leaves_clean. exact (NL u p r U Sp Q).
  - unfold operand_run. destruct (ext_object p Op) as [-> ->]. rewrite FE, FS, FC. cbn [orb].
    destruct (proj1 Work p) as (_ & _ & R); [rewrite U; apply in_or_app; right; left; reflexivity|]. rewrite R. cbn [app].
    rewrite (IH (u ++ [p])); [rewrite <- app_assoc; reflexivity|rewrite U, <- app_assoc; reflexivity|]. intros (q & I & Q). apply CL. exists q. split; [right; exact I|exact Q].
Qed.
Lemma last_none v : last_of (values v l) = None <-> values v l = [].
Proof. unfold last_of. split; [|intros ->; reflexivity]. intros H. destruct (rev (values v l)) eqn:E; [|discriminate]. rewrite <- (rev_involutive (values v l)), E. reflexivity. Qed.
Lemma o_check : one_for_o l -> negb (Nat.eqb (length (operands a)) 1) && (match outfile a with Some _ => true | None => false end) = false.
Proof.
  intros O. destruct flags_of as (_ & _ & _ & _ & FO & FF & _). rewrite FO, FF. destruct (last_of (values VOut l)) as [o|] eqn:E; [|apply andb_false_r].
  assert (L : length (files l) = 1%nat) by (apply O; intros N; apply last_none in N; congruence). unfold text in L. rewrite L. reflexivity.
Qed.
Lemma run_produces es : produces l set es -> ~ said PStrip l -> (said PPreprocess l -> values VUndefine l = []) -> (said PPreprocess l \/ nothing_left w set l) -> main w date time a = (es, Ok tt).
Proof.
  intros P NS NU NL. destruct flags_of as (FE & FS & FC & Fs & FO & FF & FU). unfold main. rewrite Fs, (said_false _ _ NS).
  assert (NL' : flag_E a = true \/ nothing_left w set l) by (destruct NL as [NL|NL]; [left; rewrite FE; apply saidP; exact NL|right; exact NL]).
  destruct P as [E NO Src|es NE SA NC O Ea|es NE NA SC O Ea|out es is NE NA NC EO L].
  - pose proof (proj2 (saidP _ _) E) as E'.
    assert (EA : each (fun p e => source p /\ e = [Preprocessed p set]) (files l) (map (fun p => Preprocessed p set) (files l))).
    { revert Src. generalize (files l) as ps. induction ps as [|p ps IH]; intros Fs'; [constructor|]. cbn [map]. change (Preprocessed p set :: ?x) with ([Preprocessed p set] ++ x). constructor.
      - split; [exact (Forall_inv Fs')|reflexivity].
      - apply IH. exact (Forall_inv_tail Fs'). }
    rewrite FO, FF, (proj2 (last_none VOut) NO), andb_false_r. cbn [andb].
    rewrite (operands_each (fun p e => source p /\ e = [Preprocessed p set]) NL' ltac:(intros ? ? H; exact (proj1 H))) with (es := map (fun p => Preprocessed p set) (files l)) (u := []); [rewrite FE, E', orb_true_r; reflexivity| |exact EA|reflexivity|reflexivity].
    intros lo p e C I (Sp & ->). exists lo. split; [|intros _; exact C]. unfold operand_run. destruct (ext_source p Sp) as [-> ->]. rewrite FE, E'.
    unfold preprocess_file. rewrite FU, (NU E). fold set. destruct (proj1 Work p I) as (C' & _). rewrite C'. reflexivity.
  - rewrite (o_check O). cbn [andb]. rewrite FO.
    rewrite (operands_each (fun p e => source p /\ exists out d, output ".s" l p out /\ dependencies l p out d /\ e = AssemblyFile out p [] set :: d) NL' ltac:(intros ? ? H; exact (proj1 H))) with (es := es) (u := []); [rewrite FE, FS, FC, (said_false _ _ NE), (said_false _ _ NC), (proj2 (saidP _ _) SA); reflexivity| |exact Ea|reflexivity|reflexivity].
    intros lo p e C I (Sp & out & d & Ou & D & ->). exists (leaves p). split; [|intros [X|X]; [rewrite FE, (said_false _ _ NE) in X; discriminate|apply leaves_clean; exact X]].
    unfold operand_run. destruct (ext_source p Sp) as [-> ->]. rewrite FE, (said_false _ _ NE).
    rewrite (compile_run lo p out d C I); [|unfold output_of, output in *; rewrite FF, FS, (proj2 (saidP _ _) SA)|exact D].
    + rewrite FS, FC, (said_false _ _ NC), (proj2 (saidP _ _) SA). reflexivity.
    + destruct (last_of (values VOut l)); [symmetry; exact Ou|]. destruct Ou as (b & St & ->). rewrite (stem_base p b St), stem_cut. reflexivity.
  - rewrite (o_check O). cbn [andb]. rewrite FO.
    rewrite (operands_each (fun p e => source p /\ exists out d, output ".o" l p out /\ dependencies l p out d /\ e = ObjectFile (s_abi set) out (Some (p, [])) set :: d) NL' ltac:(intros ? ? H; exact (proj1 H))) with (es := es) (u := []); [rewrite FE, FS, FC, (said_false _ _ NE), (said_false _ _ NA), (proj2 (saidP _ _) SC); reflexivity| |exact Ea|reflexivity|reflexivity].
    intros lo p e C I (Sp & out & d & Ou & D & ->). exists (leaves p). split; [|intros [X|X]; [rewrite FE, (said_false _ _ NE) in X; discriminate|apply leaves_clean; exact X]].
    unfold operand_run. destruct (ext_source p Sp) as [-> ->]. rewrite FE, (said_false _ _ NE).
    rewrite (compile_run lo p out d C I); [|unfold output_of, output in *; rewrite FF, FS, FC, (said_false _ _ NA), (proj2 (saidP _ _) SC)|exact D].
    + rewrite FS, FC, (said_false _ _ NA), (proj2 (saidP _ _) SC). reflexivity.
    + destruct (last_of (values VOut l)); [symmetry; exact Ou|]. destruct Ou as (b & St & ->). rewrite (stem_base p b St), stem_cut. reflexivity.
  - destruct NL as [NL|NL]; [contradiction|].
    rewrite FO. rewrite (operands_linked out (files l) NL) with (es := es) (is := is) (u := []); try (rewrite ?FE, ?FS, ?FC; apply said_false; assumption);
      [|rewrite FF; exact EO|exact L|reflexivity|reflexivity].
    rewrite FE, FS, FC, (said_false _ _ NE), (said_false _ _ NA), (said_false _ _ NC). cbn [orb negb]. rewrite andb_false_r.
    cbn [app]. rewrite (proj2 Work), FF, EO. reflexivity.
Qed.
End Run.

(** ** Refusals *)
Definition neither (p : text) : Prop := (2 <= length p)%nat /\ ~ source p /\ ~ object p.
Lemma ext_neither p : neither p -> is_ext_file p 99 = Ok false /\ is_ext_file p 111 = Ok false.
Proof.
  intros (L & N1 & N2). unfold is_ext_file. destruct (rev p) as [|e [|d r]] eqn:E.
  - apply (f_equal (@length Z)) in E. rewrite rev_length in E. cbn in E. lia.
  - apply (f_equal (@length Z)) in E. rewrite rev_length in E. cbn in E. lia.
  - assert (P : p = rev r ++ [d; e]) by (rewrite <- (rev_involutive p), E; cbn [rev]; rewrite <- app_assoc; reflexivity).
    destruct (Z.eqb_spec d 46) as [->|]; [|split; reflexivity]. destruct (Z.eqb_spec e 99) as [->|]; [exfalso; apply N1; exists (rev r); exact P|].
    destruct (Z.eqb_spec e 111) as [->|]; [exfalso; apply N2; exists (rev r); exact P|]. split; reflexivity.
Qed.
Lemma operands_stop w date time a p ps : In p ps -> (forall lo e o lo', operand_run w date time a lo p <> (e, o, lo', Ok tt)) ->
  forall lo obs es y, operands_run w date time a ps lo obs = (es, y) -> forall o, y <> Ok o.
Proof.
  intros I N. induction ps as [|q r IH]; [destruct I|]. intros lo obs es y E o. cbn [operands_run] in E.
  destruct (operand_run w date time a lo q) as [[[e ob] lo'] x] eqn:Q. destruct x as [[]| |]; try (injection E as _ <-; discriminate).
  destruct (operands_run w date time a r lo' (obs ++ ob)) as [e' y'] eqn:R. injection E as _ <-. destruct I as [->|I]; [exfalso; exact (N _ _ _ _ Q)|]. exact (IH I _ _ _ _ R o).
Qed.
Lemma main_stop w date time a p : In p (operands a) -> (forall lo e o lo', operand_run w date time a lo p <> (e, o, lo', Ok tt)) -> snd (main w date time a) <> Ok tt.
Proof.
  intros I N. unfold main. destruct (flag_s a); [discriminate|]. destruct (_ && _ && _); [discriminate|].
  destruct (operands_run w date time a (operands a) _ []) as [e x] eqn:E. destruct x as [o| |]; [exfalso; exact (operands_stop _ _ _ _ _ _ I N _ _ _ _ E o eq_refl)|discriminate|discriminate].
Qed.
