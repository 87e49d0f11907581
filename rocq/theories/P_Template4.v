(** * Templates that extend and include *)

From Coq Require Import Ascii String List NArith ZArith Bool Lia Arith.
From Verif Require Import PyStr PyStrLemmas M_Loader M_Template S_Template P_Template P_Template2 P_Template3.
Import ListNotations.
Open Scope list_scope.

Section Names.
Variable obj : Type.
Variable fn : Type.
Variable builtin : str -> option (gval obj fn).
Notation gval := (gval obj fn).
Notation dict := (dict obj fn).
Notation cls := (cls obj fn).
Notation heap := (heap obj fn).
Notation globals := (globals obj fn).
Notation attrs := (attrs obj fn).
Notation new := (new obj fn).
Notation GInst := (GInst obj fn).
Notation resolve := (resolve obj fn builtin).

Lemma new_names : forall h c ctx k v, a_class obj fn c -> a_dict (context_of obj fn h ctx) -> k <> L "_" -> k <> L "value_of" ->
  (get k (globals (fst (new h c ctx)) (snd (new h c ctx))) = Some v <-> stands_for obj fn c (context_of obj fn h ctx) (length h) k v).
Proof.
  intros h c ctx k v C D N1 N2. rewrite globals_new. unfold M_Template.new. cbn [snd]. rewrite Nat.eqb_refl, get_init by assumption.
  destruct (seqb_spec k (L "value_of")); [contradiction|]. destruct (seqb_spec k (L "_")); [contradiction|]. now apply first_stands.
Qed.
Lemma new_gettext : forall h c ctx, a_class obj fn c -> a_dict (context_of obj fn h ctx) ->
  let r := new h c ctx in
  get (L "_") (globals (fst r) (snd r)) = get (L "gettext") (globals (fst r) (snd r)) /\
  get (L "value_of") (globals (fst r) (snd r)) = Some (GValueOf obj fn (snd r)).
Proof.
  intros h c ctx C D r. unfold r. rewrite globals_new. unfold M_Template.new. cbn [snd]. rewrite Nat.eqb_refl, !get_init by assumption. now split.
Qed.

Section Chain.
Variable c0 : cls.
Variable ps : list cls.
Variable ctx : dict.
Notation cs := (c0 :: ps).
Hypothesis Cs : Forall (a_class obj fn) cs.
Hypothesis Ctx : a_dict ctx.
Hypothesis Self : leaves_alone obj fn (L "self") cs ctx.
Hypothesis Local : leaves_alone obj fn (L "local") cs ctx.
Lemma alone : forall k v, leaves_alone obj fn k cs ctx -> k <> L "_" -> k <> L "value_of" -> helper obj fn 0 k v -> fresh obj fn cs ctx 0 k = Some v.
Proof.
  intros k v [U F] N1 N2 H. unfold fresh. cbn [nth_error]. inversion Cs as [|? ? A0 _]; subst. inversion F as [|? ? [U1 U2] _]; subst. rewrite get_init by assumption.
  destruct (seqb_spec k (L "value_of")); [contradiction|]. destruct (seqb_spec k (L "_")); [contradiction|]. apply first_stands; [assumption..|]. now apply sf_helper.
Qed.
Lemma self0 : pre obj fn cs ctx 0 (L "self") = Some (GInst 0).
Proof. cbn [pre]. apply alone; [exact Self|discriminate..|constructor]. Qed.
Lemma local0 : pre obj fn cs ctx 0 (L "local") = Some (GInst 0).
Proof. cbn [pre]. apply alone; [exact Local|discriminate..|constructor]. Qed.
Lemma start : inv obj fn cs ctx (fst (new [] c0 (Given _ _ ctx))) 0.
Proof.
  split; [reflexivity|]. intros m Hm. assert (m = 0) as -> by lia. cbn [Nat.ltb Nat.leb]. split; [eexists; split; reflexivity|]. split; [apply init_dict|]. split; intros k; reflexivity.
Qed.
Lemma template_runs : exists h, exec_template obj fn builtin c0 ps ctx = Ok (h, length ps) /\ inv obj fn cs ctx h (length ps).
Proof.
  unfold exec_template. destruct (new [] c0 (Given _ _ ctx)) as [h i] eqn:E. pose proof start as St. rewrite E in St. cbn [fst] in St.
  assert (i = 0) as -> by (unfold M_Template.new in E; cbn [length] in E; congruence).
  destruct (chain_run obj fn builtin cs ctx self0 local0 ps 0 h St eq_refl) as (h' & E' & I'). exists h'. now split.
Qed.
Lemma template_relatives : forall h, inv obj fn cs ctx h (length ps) -> forall j, j <= length ps ->
  get (L "self") (globals h j) = Some (GInst 0) /\ get (L "local") (globals h j) = Some (GInst j) /\
  (j < length ps -> get (L "parent") (globals h j) = Some (GInst (S j))) /\
  (forall i, j = S i -> get (L "child") (globals h j) = Some (GInst i)).
Proof.
  intros h [Lh H] j Hj. destruct (H j Hj) as (_ & _ & G & _). rewrite !G.
  assert (Ps : forall m, pre obj fn cs ctx m (L "self") = Some (GInst 0)) by (apply pre_self; exact self0).
  assert (Pl : forall m, pre obj fn cs ctx m (L "local") = Some (GInst m)) by (apply pre_local; exact local0).
  destruct (Nat.ltb_spec j (length ps)) as [Lt|Ge].
  - unfold final. split; [rewrite Ps; reflexivity|]. split; [reflexivity|]. split; [reflexivity|]. intros i ->. reflexivity.
  - split; [apply Ps|]. split; [apply Pl|]. split; [lia|]. intros i ->. reflexivity.
Qed.
Lemma same_gettext : forall m, pre obj fn cs ctx m (L "_") = pre obj fn cs ctx m (L "gettext").
Proof.
  assert (Fr : forall i, fresh obj fn cs ctx i (L "_") = fresh obj fn cs ctx i (L "gettext")).
  { intros i. unfold fresh. destruct (nth_error cs i) as [c|] eqn:E; [|reflexivity]. apply nth_error_In in E. rewrite Forall_forall in Cs. now rewrite !get_init by auto. }
  induction m as [|m IH]; [apply Fr|].
  change (or_else (fun_of obj fn (L "_") (pre obj fn cs ctx m (L "_"))) (fresh obj fn cs ctx (S m) (L "_")) =
          or_else (fun_of obj fn (L "gettext") (pre obj fn cs ctx m (L "gettext"))) (fresh obj fn cs ctx (S m) (L "gettext"))).
  rewrite IH, Fr. reflexivity.
Qed.
Lemma template_gettext : forall h, inv obj fn cs ctx h (length ps) -> forall j, j <= length ps ->
  get (L "_") (globals h j) = get (L "gettext") (globals h j).
Proof.
  intros h [Lh H] j Hj. destruct (H j Hj) as (_ & _ & G & _). rewrite !G. destruct (j <? length ps); [|apply same_gettext].
  unfold final, offered. rewrite same_gettext. assert (Fr : forall i, fresh obj fn cs ctx i (L "_") = fresh obj fn cs ctx i (L "gettext")).
  { intros i. unfold fresh. destruct (nth_error cs i) as [c|] eqn:E; [|reflexivity]. apply nth_error_In in E. rewrite Forall_forall in Cs. now rewrite !get_init by auto. }
  now rewrite Fr.
Qed.
Lemma template_main : forall h, inv obj fn cs ctx h (length ps) -> forall j f, j <= length ps -> unknown (L "__main__") ctx -> defines obj fn cs j (L "__main__") f ->
  get (L "__main__") (globals h j) = Some (function_of obj fn f j).
Proof.
  intros h [Lh H] j f Hj U (c & Ec & I1). destruct (H j Hj) as (_ & _ & G & _). rewrite G.
  assert (Ac : a_class obj fn c) by (apply nth_error_In in Ec; rewrite Forall_forall in Cs; auto).
  assert (P : pre obj fn cs ctx j (L "__main__") = Some (function_of obj fn f j)).
  { assert (Fr : fresh obj fn cs ctx j (L "__main__") = Some (function_of obj fn f j)).
    { unfold fresh. rewrite Ec, get_init by assumption. change (get (L "__main__") (first_globals obj fn j c ctx) = Some (function_of obj fn f j)). apply first_stands; [assumption..|]. now apply sf_function. }
    destruct j as [|j]; exact Fr. }
  destruct (j <? length ps); [|exact P]. unfold final. rewrite P. reflexivity.
Qed.

Hypothesis Pctx : plain obj fn ctx.
Hypothesis Pbase : Forall (fun c => plain obj fn (base_globals _ _ c)) cs.
Lemma template_names : forall h, inv obj fn cs ctx h (length ps) -> forall j k v, j <= length ps -> ~ In k special ->
  (get k (globals h j) = Some v <-> visible obj fn cs ctx j k v).
Proof.
  intros h [Lh H] j k v Hj Ns. destruct (H j Hj) as (_ & _ & G & _). rewrite G. rewrite <- (final_visible obj fn cs ctx Cs Ctx Pctx Pbase j k v) by (cbn [length]; try lia; assumption).
  reflexivity.
Qed.

(** ** Attributes *)
Lemma attribute_own : forall h, inv obj fn cs ctx h (length ps) -> forall j k f, j <= length ps -> defines obj fn cs j k f ->
  getattr obj fn h j k = Ok (TplFunc fn (Code fn f) j).
Proof.
  intros h [Lh H] j k f Hj D. destruct (H j Hj) as (_ & _ & _ & A). unfold getattr. rewrite A. apply (defines_at obj fn cs Cs Pbase) in D.
  unfold attr_final. rewrite get_bound, D. cbn [option_map or_else]. now destruct (j <? length ps).
Qed.
Lemma attribute_other : forall h, inv obj fn cs ctx h (length ps) -> forall j k, j <= length ps -> not_defined obj fn cs j k -> unknown k ctx -> ~ In k special ->
  getattr obj fn h j k =
  if (j <? length ps) && negb (smem k template_attributes) then match fdef obj fn cs (S j) k with Some _ => Ok (TplFunc fn (Trampoline fn k) j) | None => Raise "AttributeError" end
  else Raise "AttributeError".
Proof.
  intros h [Lh H] j k Hj D U Ns. destruct (H j Hj) as (_ & _ & _ & A). unfold getattr. rewrite A. apply (not_defined_at obj fn cs Cs Pbase) in D.
  destruct (Nat.ltb_spec j (length ps)) as [Lt|Ge]; cbn [andb].
  - unfold attr_final. rewrite get_bound, D. cbn [option_map or_else]. rewrite (offered_get obj fn cs ctx Cs Ctx Pctx Pbase) by (cbn [length]; try lia; assumption).
    apply get_none in U. rewrite U. destruct (fdef obj fn cs (S j) k) as [[f i]|]; cbn [option_map]; [|now destruct (negb _)]. now destruct (smem k template_attributes).
  - now rewrite get_bound, D.
Qed.
Lemma attribute_inherited : forall h, inv obj fn cs ctx h (length ps) -> forall k, unknown k ctx -> ~ In k special -> ~ In k template_attributes ->
  forall d j f m, m = j + d -> m <= length ps -> inherited_from cs j k f m -> (exists i f', i <= S j /\ defines obj fn cs i k f') ->
  exists g, getattr obj fn h j k = Ok g /\ forall fuel, d <= fuel -> target obj fn builtin fuel h g = Ok (f, m).
Proof.
  intros h I1 k U Ns Nt. induction d as [|d IH]; intros j f m -> Hm (_ & Df & Nd) (i & f' & Li & Di).
  - exists (TplFunc fn (Code fn f) j). rewrite Nat.add_0_r in *. split; [now apply attribute_own|]. intros [|fuel] _; reflexivity.
  - assert (Nj : not_defined obj fn cs j k) by (apply Nd; lia).
    rewrite (attribute_other h I1 j k) by (try assumption; lia). assert (Lt : (j <? length ps) = true) by (apply Nat.ltb_lt; lia). rewrite Lt.
    apply smem_notIn in Nt. rewrite Nt. cbn [andb negb]. apply smem_notIn in Nt.
    destruct (fdef obj fn cs (S j) k) as [x|] eqn:Ef; [|exfalso; now apply (proj1 (fdef_none obj fn cs Cs Pbase (S j) k) Ef i Li f')].
    exists (TplFunc fn (Trampoline fn k) j). split; [reflexivity|]. intros [|fuel] Hf; [lia|]. cbn [target f_code f_inst].
    unfold M_Template.resolve. rewrite (proj1 (proj2 (proj2 (template_relatives h I1 j ltac:(lia)))) ltac:(lia)). cbn [rbind as_instance].
    destruct (IH (S j) f (j + S d)) as (g & Eg & Tg); [lia|exact Hm| |exists i, f'; split; [lia|exact Di]|].
    + split; [lia|]. split; [exact Df|]. intros m' H1 H2. apply Nd; lia.
    + rewrite Eg. cbn [rbind]. apply Tg. lia.
Qed.
End Chain.

(** ** Inclusion *)
Lemma import_spec : forall h name alias c g, g < length h -> a_class obj fn c -> a_dict (globals h g) ->
  let h' := fst (import_ obj fn h name alias c g) in let r := snd (import_ obj fn h name alias c g) in
  let a := match alias with Some a => a | None => default_alias_for name end in
  r = length h /\ length h' = S (length h) /\
  (forall k v, k <> L "_" -> k <> L "value_of" -> (get k (globals h' r) = Some v <-> stands_for obj fn c (globals h g) r k v)) /\
  get (L "_") (globals h' r) = get (L "gettext") (globals h' r) /\
  attrs h' r = bound fn r (methods _ _ c) /\
  (forall k, get k (globals h' g) = if seqb k a then Some (GInst r) else get k (globals h g)) /\
  (forall j, j <> g -> j < length h -> globals h' j = globals h j) /\ (forall j, j < length h -> attrs h' j = attrs h j).
Proof.
  intros h name alias c g Hg C D. unfold import_. destruct (new h c (GlobalsOf obj fn g)) as [h1 r] eqn:E. cbn [fst snd].
  assert (Er : r = length h) by (unfold M_Template.new in E; congruence). assert (Eh : h1 = fst (new h c (GlobalsOf obj fn g))) by (rewrite E; reflexivity).
  assert (G1 := globals_new obj fn h c (GlobalsOf obj fn g)). assert (A1 := attrs_new obj fn h c (GlobalsOf obj fn g)). rewrite <- Eh in G1, A1. cbn [context_of] in G1.
  assert (L1 : length h1 = S (length h)) by (rewrite Eh; unfold M_Template.new; cbn [fst]; rewrite app_length; cbn [length]; lia). clear Eh E. subst r.
  assert (Gg : globals h1 g = globals h g) by (rewrite G1; destruct (Nat.eqb_spec g (length h)); [lia|reflexivity]).
  cbv zeta. set (a := match alias with Some a => a | None => default_alias_for name end).
  assert (G2 : forall j, globals (with_globals obj fn h1 g (set a (GInst (length h)) (globals h1 g))) j = if Nat.eqb g j then set a (GInst (length h)) (globals h1 g) else globals h1 j) by (intros; apply globals_with; lia).
  split; [reflexivity|]. split; [now rewrite length_with|]. rewrite (G2 (length h)). assert (Nat.eqb g (length h) = false) as -> by (apply Nat.eqb_neq; lia).
  rewrite (G1 (length h)), Nat.eqb_refl. split; [|split; [|split; [|split; [|split]]]].
  - intros k v N1 N2. rewrite get_init by assumption. destruct (seqb_spec k (L "value_of")); [contradiction|]. destruct (seqb_spec k (L "_")); [contradiction|]. now apply first_stands.
  - now rewrite !get_init by assumption.
  - rewrite attrs_with, A1, Nat.eqb_refl. reflexivity.
  - intros k. rewrite (G2 g), Nat.eqb_refl, get_set, Gg. reflexivity.
  - intros j Ne Hj. rewrite (G2 j), (G1 j). destruct (Nat.eqb_spec g j); [congruence|]. destruct (Nat.eqb_spec j (length h)); [lia|reflexivity].
  - intros j Hj. rewrite attrs_with, A1. destruct (Nat.eqb_spec j (length h)); [lia|reflexivity].
Qed.
End Names.
