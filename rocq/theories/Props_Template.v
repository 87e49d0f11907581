(** * Properties of names, inheritance and inclusion (C52, C53, C54, C55) *)

From Coq Require Import Ascii String List NArith ZArith Bool Lia Arith.
From Verif Require Import PyStr PyStrLemmas M_Loader M_Template S_Template P_Template P_Template2 P_Template3 P_Template4.
Import ListNotations.
Open Scope list_scope.

(** ** C52: precedence of names *)
Theorem C52_names : forall obj fn (h : heap obj fn) c ctx k v,
  a_class obj fn c -> a_dict (context_of obj fn h ctx) -> k <> L "_" -> k <> L "value_of" ->
  let (h', i) := new obj fn h c ctx in
  (get k (globals obj fn h' i) = Some v <-> stands_for obj fn c (context_of obj fn h ctx) i k v).
Proof.
  intros obj fn h c ctx k v C D N1 N2. pose proof (new_names obj fn h c ctx k v C D N1 N2) as H.
  destruct (new obj fn h c ctx) as [h' i] eqn:E. cbn [fst snd] in H. assert (i = length h) by (unfold new in E; congruence). now subst i.
Qed.
Print Assumptions C52_names.
(** [_] is the [gettext] in effect, whatever the context says about [_]. *)
Theorem C52_gettext : forall obj fn (h : heap obj fn) c ctx,
  a_class obj fn c -> a_dict (context_of obj fn h ctx) ->
  let (h', i) := new obj fn h c ctx in
  get (L "_") (globals obj fn h' i) = get (L "gettext") (globals obj fn h' i) /\
  get (L "value_of") (globals obj fn h' i) = Some (GValueOf obj fn i).
Proof. intros obj fn h c ctx C D. pose proof (new_gettext obj fn h c ctx C D) as H. destruct (new obj fn h c ctx) as [h' i]. exact H. Qed.
Print Assumptions C52_gettext.
(** [defined(k)] asks whether the name stands for anything; the method [defined] whether the context has it. *)
Theorem C52_defined : forall obj fn (h : heap obj fn) c ctx k,
  a_class obj fn c -> a_dict (context_of obj fn h ctx) -> k <> L "_" -> k <> L "value_of" ->
  let (h', i) := new obj fn h c ctx in
  (defined_name obj fn h' i k = true <-> exists v, stands_for obj fn c (context_of obj fn h ctx) i k v).
Proof.
  intros obj fn h c ctx k C D N1 N2. pose proof (fun v => C52_names obj fn h c ctx k v C D N1 N2) as H. destruct (new obj fn h c ctx) as [h' i].
  unfold defined_name, has. split.
  - destruct (get k (globals obj fn h' i)) as [v|]; [|discriminate]. intros _. exists v. now apply H.
  - intros [v Hv]. apply H in Hv. now rewrite Hv.
Qed.
Print Assumptions C52_defined.
Theorem C52_defined_method : forall obj fn (h : heap obj fn) c ctx k,
  let (h', i) := new obj fn h c (Given _ _ ctx) in (defined_method obj fn h' i k = true <-> ~ unknown k ctx).
Proof.
  intros obj fn h c ctx k. unfold new. cbv zeta. unfold defined_method. rewrite nth_error_app2, Nat.sub_diag by lia. cbn [nth_error i_context context_of].
  unfold has. pose proof (get_none _ k ctx) as G. destruct (get k ctx); [|split; [discriminate|intros U; exfalso; apply U; now apply G]]. split; [|reflexivity]. intros _ U. apply G in U. discriminate.
Qed.
Print Assumptions C52_defined_method.
(** Module-level code comes before the [base_globals] that are given. *)
Theorem C52_module : forall obj fn ms (given module : dict obj fn) k v, a_dict given -> a_dict module ->
  (In (k, v) (base_globals _ _ (from_ir obj fn ms given module)) <-> In (k, v) module \/ (unknown k module /\ In (k, v) given)).
Proof.
  intros obj fn ms given module k v Dg Dm. cbn [from_ir base_globals]. rewrite <- (get_in _ k v _ (update_dict obj fn module given Dg)).
  rewrite get_update by assumption. rewrite <- (get_in _ k v module Dm), <- (get_in _ k v given Dg), <- get_none.
  destruct (get k module) as [v0|]; [|split; [intros H; right; now split|intros [H|[_ H]]; [discriminate|exact H]]]. split; [tauto|]. intros [H|[H _]]; [exact H|discriminate].
Qed.
Print Assumptions C52_module.
(** No name stands for two things. *)
Theorem C52_unique : forall obj fn c (ctx : dict obj fn) i k v v', a_class obj fn c -> a_dict ctx ->
  stands_for obj fn c ctx i k v -> stands_for obj fn c ctx i k v' -> v = v'.
Proof. intros obj fn c ctx i k v v' C D H H'. apply first_stands in H, H'; try assumption. congruence. Qed.
Print Assumptions C52_unique.

Definition tobj (n : N) : gval N str := GObj N str n.
Example C52_example :
  let c := from_ir N str [(L "f", L "def f"); (L "x", L "def x")] [(L "g", tobj 1); (L "m", tobj 1); (L "f", tobj 1)] [(L "m", tobj 2)] in
  let ctx := [(L "x", tobj 3); (L "_", tobj 4)] in
  a_class N str c /\ a_dict ctx /\
  let (h, i) := new N str [] c (Given _ _ ctx) in
  map (fun k => get (L k) (globals N str h i)) ["x"; "f"; "g"; "m"; "_"; "self"; "y"]%string =
  [Some (tobj 3); Some (function_of N str (L "def f") 0); Some (tobj 1); Some (tobj 2); Some (GGettext _ _); Some (GInst _ _ 0); None].
Proof.
  cbv zeta. split; [|split; [|reflexivity]].
  - split; vm_compute; repeat constructor; cbn; intuition discriminate.
  - vm_compute; repeat constructor; cbn; intuition discriminate.
Qed.

(** ** C53: inheritance

    [c :: ps] are templates each of which extends the next; number [0] is the one that is rendered. *)
Theorem C53_names : forall obj fn builtin c ps ctx, chain_ok obj fn (c :: ps) ctx ->
  exists h, exec_template obj fn builtin c ps ctx = Ok (h, length ps) /\
    forall j k v, j <= length ps -> ~ In k special ->
      (get k (globals obj fn h j) = Some v <-> visible obj fn (c :: ps) ctx j k v).
Proof.
  intros obj fn builtin c ps ctx [H1 H2 H3 H4 H5 H6]. destruct (template_runs obj fn builtin c ps ctx) as (h & E & I1); try assumption.
  exists h. split; [exact E|]. now apply template_names.
Qed.
Print Assumptions C53_names.
(** In particular, the definition of the template nearest to the one rendered wins. *)
Theorem C53_override : forall obj fn builtin c ps ctx h n j k f i, chain_ok obj fn (c :: ps) ctx ->
  exec_template obj fn builtin c ps ctx = Ok (h, n) -> j <= length ps -> ~ In k special -> unknown k ctx ->
  overriding obj fn (c :: ps) j k f i -> resolve obj fn builtin h j k = Ok (function_of obj fn f i).
Proof.
  intros obj fn builtin c ps ctx h n j k f i Ok_ E Hj Ns U O. destruct (C53_names obj fn builtin c ps ctx Ok_) as (h' & E' & H).
  assert (h' = h) by congruence. subst h'. unfold resolve. now rewrite (proj2 (H j k (function_of obj fn f i) Hj Ns) (vi_function _ _ _ _ _ _ f i U O)).
Qed.
Print Assumptions C53_override.
Theorem C53_relatives : forall obj fn builtin c ps ctx h n, chain_ok obj fn (c :: ps) ctx ->
  exec_template obj fn builtin c ps ctx = Ok (h, n) -> n = length ps /\ length h = S (length ps) /\
  forall j, j <= length ps ->
    get (L "self") (globals obj fn h j) = Some (GInst _ _ 0) /\ get (L "local") (globals obj fn h j) = Some (GInst _ _ j) /\
    (j < length ps -> get (L "parent") (globals obj fn h j) = Some (GInst _ _ (S j))) /\
    (forall i, j = S i -> get (L "child") (globals obj fn h j) = Some (GInst _ _ i)) /\
    get (L "_") (globals obj fn h j) = get (L "gettext") (globals obj fn h j).
Proof.
  intros obj fn builtin c ps ctx h n [H1 H2 H3 H4 H5 H6] E. destruct (template_runs obj fn builtin c ps ctx) as (h' & E' & I1); try assumption.
  assert (h' = h /\ n = length ps) as [-> ->] by (split; congruence). split; [reflexivity|]. split; [apply I1|]. intros j Hj.
  destruct (template_relatives obj fn c ps ctx H1 H2 H3 H4 h I1 j Hj) as (A & B & C & D). repeat split; try assumption. eapply template_gettext; eassumption.
Qed.
Print Assumptions C53_relatives.
(** Every template keeps its own [__main__]. *)
Theorem C53_main : forall obj fn builtin c ps ctx h n j f, chain_ok obj fn (c :: ps) ctx ->
  exec_template obj fn builtin c ps ctx = Ok (h, n) -> j <= length ps -> unknown (L "__main__") ctx ->
  defines obj fn (c :: ps) j (L "__main__") f ->
  get (L "__main__") (globals obj fn h j) = Some (function_of obj fn f j) /\ getattr obj fn h j (L "__main__") = Ok (TplFunc _ (Code _ f) j).
Proof.
  intros obj fn builtin c ps ctx h n j f [H1 H2 H3 H4 H5 H6] E Hj U D. destruct (template_runs obj fn builtin c ps ctx) as (h' & E' & I1); try assumption.
  assert (h' = h) by congruence. subst h'. split; [now apply (template_main obj fn c ps ctx H1 H2 h I1)|]. eapply attribute_own; eassumption.
Qed.
Print Assumptions C53_main.
Lemma own_names_exact : forall k, In k own_names <-> In k template_attributes.
Proof.
  intros k. rewrite <- !smem_In. split; intros H; apply smem_In in H; unfold own_names, template_attributes in H; apply in_map_iff in H as (x & <- & H);
    cbn [In] in H; repeat (destruct H as [<-|H]; [vm_compute; reflexivity|]); destruct H.
Qed.
(** A function of a template that is extended, named like something that all templates have, is no
    attribute of the template extending it: that stays what it is. *)
Theorem C53_own_names : forall obj fn builtin c ps ctx h n j k, chain_ok obj fn (c :: ps) ctx ->
  exec_template obj fn builtin c ps ctx = Ok (h, n) -> unknown k ctx -> ~ In k special -> j <= length ps ->
  not_defined obj fn (c :: ps) j k -> In k own_names ->
  getattr obj fn h j k = Raise "AttributeError" (* no function of a template *).
Proof.
  intros obj fn builtin c ps ctx h n j k [H1 H2 H3 H4 H5 H6] E U Ns Hj D I1. destruct (template_runs obj fn builtin c ps ctx) as (h' & E' & I2); try assumption.
  assert (h' = h) by congruence. subst h'. rewrite (attribute_other obj fn c ps ctx H1 H2 H5 H6 h I2 j k) by assumption.
  apply own_names_exact, smem_In in I1. rewrite I1, andb_false_r. reflexivity.
Qed.
Print Assumptions C53_own_names.
(** [parent.f], as the blocks of C45 use it: in the template number [S i], or the nearest one that it
    extends, the definition that the one of number [i] replaces. *)
Theorem C53_replaced : forall obj fn builtin c ps ctx h n i k f f' m, chain_ok obj fn (c :: ps) ctx ->
  exec_template obj fn builtin c ps ctx = Ok (h, n) -> unknown k ctx -> ~ In k special -> ~ In k own_names ->
  i < length ps -> m <= length ps -> defines obj fn (c :: ps) i k f -> inherited_from (c :: ps) (S i) k f' m ->
  get (L "parent") (globals obj fn h i) = Some (GInst _ _ (S i)) /\
  exists g, getattr obj fn h (S i) k = Ok g /\ forall fuel, m - S i <= fuel -> target obj fn builtin fuel h g = Ok (f', m).
Proof.
  intros obj fn builtin c ps ctx h n i k f f' m [H1 H2 H3 H4 H5 H6] E U Ns Nt Hi Hm D R. rewrite own_names_exact in Nt. destruct (template_runs obj fn builtin c ps ctx) as (h' & E' & I1); try assumption.
  assert (h' = h) by congruence. subst h'. split; [apply (template_relatives obj fn c ps ctx H1 H2 H3 H4 h I1 i); lia|].
  destruct (attribute_inherited obj fn builtin c ps ctx H1 H2 H3 H4 H5 H6 h I1 k U Ns Nt (m - S i) (S i) f' m) as (g & Eg & Tg); try assumption.
  - destruct R as (R & _). lia.
  - exists i, f. split; [lia|exact D].
  - exists g. split; [exact Eg|]. exact Tg.
Qed.
Print Assumptions C53_replaced.

Definition tcls (names : list string) (who : string) : cls N str :=
  from_ir N str (map (fun n => (L n, L who ++ L n)) names) [] [].
Definition tchain : list (cls N str) := [tcls ["__main__"; "a"; "b"] "0."; tcls ["__main__"; "c"] "1."; tcls ["__main__"; "a"; "d"] "2."]%string.
Lemma tchain_ok : chain_ok N str tchain [(L "x", tobj 1)].
Proof.
  assert (Ka : forall k, In k [L "self"; L "local"] -> leaves_alone N str k tchain [(L "x", tobj 1)]).
  { intros k I1. split; [intros [E|[]]; destruct I1 as [<-|[<-|[]]]; discriminate|]. repeat constructor; intros Ik; vm_compute in Ik; destruct I1 as [<-|[<-|[]]]; vm_compute in Ik; intuition discriminate. }
  constructor.
  - repeat constructor; vm_compute; intuition discriminate.
  - repeat constructor. intros [].
  - apply Ka. now left.
  - apply Ka. right. now left.
  - intros k v [E|[]]. assert (v = tobj 1) as -> by congruence. reflexivity.
  - repeat constructor; intros k v [].
Qed.
Example C53_example : exists h, exec_template N str (fun _ => None) (hd (tcls [] "") tchain) (tl tchain) [(L "x", tobj 1)] = Ok (h, 2) /\
  chain_ok N str tchain [(L "x", tobj 1)] /\
  map (fun j => get (L "a") (globals N str h j)) [0; 1; 2] = [Some (function_of _ _ (L "0.a") 0); Some (function_of _ _ (L "0.a") 0); Some (function_of _ _ (L "0.a") 0)] /\
  map (fun j => get (L "c") (globals N str h j)) [0; 1; 2] = [Some (function_of _ _ (L "1.c") 1); Some (function_of _ _ (L "1.c") 1); Some (function_of _ _ (L "1.c") 1)] /\
  (* [parent.a] in the first template, which the second does not define *)
  rbind (getattr N str h 1 (L "a")) (target N str (fun _ => None) 5 h) = Ok (L "2.a", 2) /\
  inherited_from tchain 1 (L "a") (L "2.a") 2.
Proof.
  eexists. split; [vm_compute; reflexivity|]. split; [exact tchain_ok|]. split; [vm_compute; reflexivity|]. split; [vm_compute; reflexivity|]. split; [vm_compute; reflexivity|].
  split; [lia|]. split; [eexists; split; [reflexivity|]; right; now left|]. intros m' H1 H2. assert (m' = 1) as -> by lia. intros f (c & E & I1).
  cbn [tchain nth_error] in E. assert (c = tcls ["__main__"; "c"]%string "1.") as -> by congruence. vm_compute in I1. destruct I1 as [E1|[E1|[]]]; discriminate.
Qed.

(** ** C54: functions of ancestors

    A function of the template that is extended may be called by its name. *)
Theorem C54_parent_partial : forall obj fn builtin c ps ctx h n j k f, chain_ok obj fn (c :: ps) ctx ->
  exec_template obj fn builtin c ps ctx = Ok (h, n) -> ~ In k special -> unknown k ctx ->
  j < length ps -> defines obj fn (c :: ps) (S j) k f ->
  unknown k (base_of obj fn (c :: ps) j) -> (forall v, ~ helper obj fn j k v) -> (forall i, i <= j -> not_defined obj fn (c :: ps) i k) ->
  resolve obj fn builtin h j k = Ok (function_of obj fn f (S j)).
Proof.
  intros obj fn builtin c ps ctx h n j k f Ok_ E Ns U Hj D Ub Nh Nd. destruct (C53_names obj fn builtin c ps ctx Ok_) as (h' & E' & H).
  assert (h' = h) by congruence. subst h'. unfold resolve. assert (Hj' : j <= length ps) by lia.
  now rewrite (proj2 (H j k (function_of obj fn f (S j)) Hj' Ns) (vi_inherited _ _ _ _ _ _ f U Nd Ub Nh D)).
Qed.
Print Assumptions C54_parent_partial.
(** But not one that is defined further up only: it is a NameError, or an AttributeError if it is
    called as [self.f] or [local.f]. *)
Theorem C54_refuted : forall obj fn builtin c ps ctx h n j k, chain_ok obj fn (c :: ps) ctx ->
  exec_template obj fn builtin c ps ctx = Ok (h, n) -> ~ In k special -> unknown k ctx -> builtin k = None ->
  j <= length ps -> unknown k (base_of obj fn (c :: ps) j) -> (forall v, ~ helper obj fn j k v) ->
  (forall i, i <= S j -> not_defined obj fn (c :: ps) i k) ->
  resolve obj fn builtin h j k = Raise "NameError" /\ getattr obj fn h j k = Raise "AttributeError".
Proof.
  intros obj fn builtin c ps ctx h n j k Ok_ E Ns U B Hj Ub Nh Nd. pose proof Ok_ as [H1 H2 H3 H4 H5 H6]. destruct (template_runs obj fn builtin c ps ctx) as (h' & E' & I1); try assumption.
  assert (h' = h) by congruence. subst h'. split.
  - unfold resolve. destruct (get k (globals obj fn h j)) as [v|] eqn:G; [|now rewrite B]. exfalso.
    apply (template_names obj fn c ps ctx H1 H2 H5 H6 h I1 j k v Hj Ns) in G. destruct G as [v I2|f i U' (Li & D & _)|v U' N0 I2|v U' N0 Ub' He|f U' N0 Ub' Nh' D].
    + apply U. apply (in_map fst) in I2. exact I2.
    + now apply (Nd i ltac:(lia) f).
    + apply Ub. apply (in_map fst) in I2. exact I2.
    + now apply (Nh v).
    + now apply (Nd (S j) (le_n _) f).
  - rewrite (attribute_other obj fn c ps ctx H1 H2 H5 H6 h I1 j k Hj (Nd j ltac:(lia)) U Ns).
    rewrite (proj2 (fdef_none obj fn (c :: ps) H1 H6 (S j) k) Nd). now destruct (_ && _).
Qed.
Print Assumptions C54_refuted.
Example C54_example : exists h, exec_template N str (fun _ => None) (hd (tcls [] "") tchain) (tl tchain) [(L "x", tobj 1)] = Ok (h, 2) /\
  resolve N str (fun _ => None) h 1 (L "d") = Ok (function_of _ _ (L "2.d") 2) /\
  resolve N str (fun _ => None) h 0 (L "d") = Raise "NameError" /\ getattr N str h 0 (L "d") = Raise "AttributeError" /\
  defines N str tchain 2 (L "d") (L "2.d").
Proof. eexists. split; [vm_compute; reflexivity|]. repeat split; try (vm_compute; reflexivity). eexists. split; [reflexivity|]. vm_compute. tauto. Qed.

(** ** C55: inclusion

    [g] is the instance that [self] stands for in the template that includes; [r] is the instance
    of the included template. *)
Theorem C55_names : forall obj fn (h : heap obj fn) name alias c g k v, g < length h -> a_class obj fn c -> a_dict (globals obj fn h g) ->
  k <> L "_" -> k <> L "value_of" ->
  let (h', r) := import_ obj fn h name alias c g in
  (get k (globals obj fn h' r) = Some v <-> stands_for obj fn c (globals obj fn h g) r k v).
Proof.
  intros obj fn h name alias c g k v Hg C D N1 N2. destruct (import_spec obj fn h name alias c g Hg C D) as (_ & _ & H & _).
  destruct (import_ obj fn h name alias c g) as [h' r]. now apply H.
Qed.
Print Assumptions C55_names.
(** So its functions are its own only if their names mean nothing in the other template. *)
Theorem C55_own_partial : forall obj fn builtin (h : heap obj fn) name alias c g k f, g < length h -> a_class obj fn c -> a_dict (globals obj fn h g) ->
  k <> L "_" -> k <> L "value_of" -> unknown k (globals obj fn h g) -> In (k, f) (methods _ _ c) ->
  let (h', r) := import_ obj fn h name alias c g in resolve obj fn builtin h' r k = Ok (function_of obj fn f r).
Proof.
  intros obj fn builtin h name alias c g k f Hg C D N1 N2 U I1. pose proof (C55_names obj fn h name alias c g k (function_of obj fn f (length h)) Hg C D N1 N2) as H.
  destruct (import_spec obj fn h name alias c g Hg C D) as (Er & _). destruct (import_ obj fn h name alias c g) as [h' r]. cbn [snd] in Er. subst r.
  unfold resolve. rewrite (proj2 H); [reflexivity|]. now apply sf_function.
Qed.
Print Assumptions C55_own_partial.
(** Otherwise they are what the other template means by them. *)
Theorem C55_refuted : forall obj fn builtin (h : heap obj fn) name alias c g k v, g < length h -> a_class obj fn c -> a_dict (globals obj fn h g) ->
  k <> L "_" -> k <> L "value_of" -> In (k, v) (globals obj fn h g) ->
  let (h', r) := import_ obj fn h name alias c g in resolve obj fn builtin h' r k = Ok v.
Proof.
  intros obj fn builtin h name alias c g k v Hg C D N1 N2 I1. pose proof (C55_names obj fn h name alias c g k v Hg C D N1 N2) as H.
  destruct (import_ obj fn h name alias c g) as [h' r]. unfold resolve. rewrite (proj2 H); [reflexivity|]. now apply sf_context.
Qed.
Print Assumptions C55_refuted.
(** That includes [local]: [py:extends] in an included template extends the template that includes
    it, with the blocks of that one. *)
Theorem C55_extends_refuted : forall obj fn builtin (h : heap obj fn) name alias c g i parent, g < length h -> a_class obj fn c -> a_dict (globals obj fn h g) ->
  In (L "local", GInst _ _ i) (globals obj fn h g) ->
  let (h', r) := import_ obj fn h name alias c g in exec_extend obj fn builtin h' r parent = extend obj fn h' i parent.
Proof.
  intros obj fn builtin h name alias c g i parent Hg C D I1.
  pose proof (C55_refuted obj fn builtin h name alias c g (L "local") (GInst _ _ i) Hg C D ltac:(discriminate) ltac:(discriminate) I1) as H.
  destruct (import_ obj fn h name alias c g) as [h' r]. unfold exec_extend. rewrite H. reflexivity.
Qed.
Print Assumptions C55_extends_refuted.
(** Through the alias, every function of the included template is its own. *)
Theorem C55_alias : forall obj fn builtin (h : heap obj fn) name alias c g k f, g < length h -> a_class obj fn c -> a_dict (globals obj fn h g) ->
  In (k, f) (methods _ _ c) ->
  let (h', r) := import_ obj fn h name alias c g in
  let a := match alias with Some a => a | None => default_alias_for name end in
  resolve obj fn builtin h' g a = Ok (GInst _ _ r) /\ getattr obj fn h' r k = Ok (TplFunc _ (Code _ f) r) /\
  forall k' v, k' <> a -> (In (k', v) (globals obj fn h g) -> resolve obj fn builtin h' g k' = Ok v).
Proof.
  intros obj fn builtin h name alias c g k f Hg C D I1. destruct (import_spec obj fn h name alias c g Hg C D) as (Er & _ & _ & _ & A & G & _).
  destruct (import_ obj fn h name alias c g) as [h' r]. cbn [fst snd] in *. cbv zeta in *. split; [|split].
  - unfold resolve. now rewrite G, seqb_refl.
  - unfold getattr. rewrite A, get_bound. destruct C as [Dm _]. apply (get_in _ k f _ Dm) in I1. now rewrite I1.
  - intros k' v Ne I2. unfold resolve. rewrite G. destruct (seqb_spec k' (match alias with Some a => a | None => default_alias_for name end)); [contradiction|].
    apply (get_in _ k' v _ D) in I2. now rewrite I2.
Qed.
Print Assumptions C55_alias.
(** Without an alias, the name is that of the file, without directories and without the extension; names that
    consist of dots before their last dot have no extension. *)
Lemma basename_of : forall dir b, (dir = [] \/ exists d, dir = d ++ [c_slash]) -> ~ In c_slash b -> basename (dir ++ b) = b.
Proof.
  intros dir b D Nb. unfold basename. rewrite rev_app_distr.
  assert (F : forallb (fun c => negb (N.eqb c c_slash)) (rev b) = true).
  { apply forallb_forall. intros x Hx. apply in_rev in Hx. apply negb_true_iff, N.eqb_neq. intros ->. contradiction. }
  rewrite takewhile_app_all by exact F.
  destruct D as [->|(d & ->)]; [cbn; now rewrite app_nil_r, rev_involutive|]. rewrite (rev_app_distr d). cbn [rev app takewhile]. rewrite N.eqb_refl. cbn [negb].
  now rewrite app_nil_r, rev_involutive.
Qed.
Theorem C55_default_alias : forall dir m e, (dir = [] \/ exists d, dir = d ++ [c_slash]) -> ~ In c_slash m -> ~ In c_slash e -> ~ In c_dot e ->
  ((exists c, In c m /\ c <> c_dot) -> default_alias_for (dir ++ m ++ [c_dot] ++ e) = m) /\
  (~ (exists c, In c m /\ c <> c_dot) -> default_alias_for (dir ++ m ++ [c_dot] ++ e) = m ++ [c_dot] ++ e) /\
  default_alias_for (dir ++ e) = e.
Proof.
  intros dir m e D S1 S2 D2.
  assert (Sb : ~ In c_slash (m ++ [c_dot] ++ e)). { rewrite !in_app_iff. cbn. intros [H|[[H|[]]|H]]; [contradiction|discriminate|contradiction]. }
  assert (Bn : forall b, ~ In c_slash b -> basename b = b) by (intros b Hb; exact (basename_of [] b (or_introl eq_refl) Hb)).
  assert (Et : forall a, takewhile (fun c => negb (N.eqb c c_dot)) (rev (a ++ [c_dot] ++ e)) = rev e).
  { intros a. rewrite !rev_app_distr. cbn [rev app]. rewrite <- app_assoc. rewrite takewhile_app_all; [cbn; now rewrite app_nil_r|].
    apply forallb_forall. intros x Hx. apply in_rev in Hx. apply negb_true_iff, N.eqb_neq. intros ->. contradiction. }
  assert (El : length (m ++ [c_dot] ++ e) - length e - 1 = length m) by (rewrite !app_length; cbn; lia).
  assert (E1 : cmem c_dot (m ++ [c_dot] ++ e) = true) by (apply cmem_In; rewrite !in_app_iff; cbn; auto).
  unfold default_alias_for. rewrite !basename_of by assumption. unfold splitext. rewrite !Bn by assumption. rewrite Et, rev_involutive, El, firstn_app, firstn_all, Nat.sub_diag, E1.
  cbn [firstn andb]. rewrite app_nil_r.
  assert (Ex : existsb (fun c => negb (N.eqb c c_dot)) m = true <-> exists c, In c m /\ c <> c_dot).
  { rewrite existsb_exists. split; intros (c & H & Hc); exists c; (split; [exact H|]); [apply negb_true_iff, N.eqb_neq in Hc|apply negb_true_iff, N.eqb_neq]; exact Hc. }
  split; [|split].
  - intros H. apply Ex in H. rewrite H. reflexivity.
  - intros H. destruct (existsb _ m) eqn:E; [|reflexivity]. exfalso. apply H. now apply Ex.
  - assert (E2 : cmem c_dot e = false). { destruct (cmem c_dot e) eqn:E; [|reflexivity]. apply cmem_In in E. contradiction. } rewrite E2. reflexivity.
Qed.
Print Assumptions C55_default_alias.
Example C55_default_alias_example :
  default_alias_for (L "dir/a.b.html") = L "a.b" /\ default_alias_for (L ".html") = L ".html" /\ default_alias_for (L "x/box") = L "box".
Proof. repeat split; reflexivity. Qed.
(** In templates that extend each other, all share what they import: it is known to the template that is
    rendered, [self], whichever of them imports. *)
Theorem C55_self : forall obj fn builtin c ps ctx h n, chain_ok obj fn (c :: ps) ctx -> exec_template obj fn builtin c ps ctx = Ok (h, n) ->
  forall j name alias c', j <= length ps ->
    exec_import obj fn builtin h j name alias c' = Ok (import_ obj fn h name alias c' 0).
Proof.
  intros obj fn builtin c ps ctx h n Ck E j name alias c' Hj. destruct (C53_relatives obj fn builtin c ps ctx h n Ck E) as (_ & _ & R).
  destruct (R j Hj) as (Rs & Rl & _). unfold exec_import, resolve. rewrite Rl, Rs. reflexivity.
Qed.
Print Assumptions C55_self.
Example C55_example :
  let (h, i) := new N str [] (tcls ["__main__"; "a"]%string "page.") (Given _ _ [(L "x", tobj 1)]) in
  a_dict (globals N str h i) /\
  let (h, r) := import_ N str h (L "dir/box.html") None (tcls ["__main__"; "a"; "b"]%string "box.") i in
  resolve N str (fun _ => None) h r (L "a") = Ok (function_of _ _ (L "page.a") 0) /\
  resolve N str (fun _ => None) h r (L "b") = Ok (function_of _ _ (L "box.b") 1) /\
  resolve N str (fun _ => None) h r (L "local") = Ok (GInst _ _ 0) /\
  resolve N str (fun _ => None) h i (L "box") = Ok (GInst _ _ 1) /\
  getattr N str h r (L "a") = Ok (TplFunc _ (Code _ (L "box.a")) 1).
Proof.
  vm_compute. repeat split; try reflexivity. repeat constructor; cbn; intuition discriminate.
Qed.
Definition ochain : list (cls N str) := [tcls ["__main__"] "0."; tcls ["__main__"; "a"; "render"] "1."]%string.
Example C53_own_names_example : chain_ok N str ochain [] /\ not_defined N str ochain 0 (L "render") /\ In (L "render") own_names /\
  exists h, exec_template N str (fun _ => None) (hd (tcls [] "") ochain) (tl ochain) [] = Ok (h, 1) /\
    getattr N str h 0 (L "a") = Ok (TplFunc _ (Trampoline _ (L "a")) 0) /\ getattr N str h 0 (L "render") = Raise "AttributeError".
Proof.
  assert (Ka : forall k, In k [L "self"; L "local"] -> leaves_alone N str k ochain []).
  { intros k I1. split; [intros []|]. repeat constructor; intros Ik; vm_compute in Ik; destruct I1 as [<-|[<-|[]]]; vm_compute in Ik; intuition discriminate. }
  split; [|split; [|split; [now left|]]].
  - constructor.
    + repeat constructor; vm_compute; intuition discriminate.
    + constructor.
    + apply Ka. now left.
    + apply Ka. right. now left.
    + intros k v [].
    + repeat constructor; intros k v [].
  - intros f (c & E & H). cbn [nth_error ochain] in E; injection E as <-. vm_compute in H. intuition discriminate.
  - eexists. split; [vm_compute; reflexivity|]. split; vm_compute; reflexivity.
Qed.
