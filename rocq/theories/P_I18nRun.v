(** * Proofs: whole templates depend on the translations of their messages only *)

From Coq Require Import Ascii String List Arith NArith ZArith Bool Lia.
From Verif Require Import PyStr PyStrLemmas M_Values M_IR S_IR P_IR P_IR3 M_Template M_I18n P_I18n P_I18n2 M_Text M_XText M_Dom M_XCompile M_Run S_Run M_XRun S_I18nRun.
From Verif Require M_Exec.
Import ListNotations.
Open Scope list_scope.

(** ** The same outcome, with a property *)
Definition same {A : Type} (P : A -> Prop) (r r' : result A) : Prop := r' = r /\ forall x, r = Ok x -> P x.
Lemma same_ok : forall A (P : A -> Prop) x, P x -> same P (Ok x) (Ok x).
Proof. intros A P x H. split; [reflexivity|]. intros y E. assert (y = x) as -> by congruence. exact H. Qed.
Lemma same_raise : forall A (P : A -> Prop) e, same P (Raise e) (Raise e).
Proof. intros A P e. split; [reflexivity|]. discriminate. Qed.
Lemma same_bind : forall A B (P : A -> Prop) (Q : B -> Prop) a a' k k', same P a a' -> (forall x, P x -> same Q (k x) (k' x)) -> same Q (rbind a k) (rbind a' k').
Proof. intros A B P Q a a' k k' [-> Ha] Hk. destruct a as [x|e]; cbn [rbind]; [apply Hk; now apply Ha|apply same_raise]. Qed.
Lemma same_map : forall A B (P : A -> Prop) (Q : B -> Prop) a a' (k k' : A -> B), same P a a' -> (forall x, P x -> k' x = k x /\ Q (k x)) -> same Q (rmap k a) (rmap k' a').
Proof. intros A B P Q a a' k k' [-> Ha] Hk. destruct a as [x|e]; cbn [rmap]; [|apply same_raise]. destruct (Hk x (Ha x eq_refl)) as [-> H]. now apply same_ok. Qed.
Lemma same_refl : forall A (P : A -> Prop) r, (forall x, r = Ok x -> P x) -> same P r r.
Proof. intros A P r H. now split. Qed.
Lemma same_weak : forall A (P Q : A -> Prop) r r', same P r r' -> (forall x, P x -> Q x) -> same Q r r'.
Proof. intros A P Q r r' [E H] W. split; [exact E|]. intros x Hx. now apply W, H. Qed.

Section Same.
Variable py : python.
Variable f : str -> value.
Notation py' := (retranslated py f).
Notation quiet_names := quiet_names.
Notation quiet_text := (quiet_text py).
Notation quiet_guard := (quiet_guard py).
Notation quiet_python := (quiet_python).
Notation quiet_node := (quiet_node py).

(** ** Code *)
Definition quiet_stmt (q : pstmt) : Prop :=
  match q with
  | PText g _ => match g with Some c => quiet_text c | None => True end
  | PGettext g t => match g with Some c => quiet_text c | None => True end /\ f t = gettext py t
  | PYield e | PEscape e | PAssign _ e | PPushSwitch e | PIf e | PCase e | PForAttrs _ e _ => quiet_text e
  | PFor d => quiet_names (expr_names (snd (parse_for py d)))
  | _ => True
  end.
Fixpoint quiet (b : blk) : Prop :=
  match b with
  | Tx _ g => quiet_guard g
  | St q => quiet_stmt q
  | Bl h body => quiet_stmt h /\ (fix go (l : list blk) : Prop := match l with [] => True | c :: l' => quiet c /\ go l' end) body
  | Py lines => Forall quiet_python (python_of py lines)
  end.
Lemma quiet_go : forall l, (fix go (l : list blk) : Prop := match l with [] => True | c :: l' => quiet c /\ go l' end) l <-> Forall quiet l.
Proof. induction l as [|b l IH]; [split; [constructor|trivial]|]. rewrite Forall_cons_iff, IH. reflexivity. Qed.
Lemma quiet_bl : forall h b, quiet (Bl h b) <-> quiet_stmt h /\ Forall quiet b.
Proof. intros h b. cbn [quiet]. now rewrite quiet_go. Qed.

Lemma join_quiet : forall l, Forall quiet l -> Forall quiet (join_texts l).
Proof.
  induction l as [|b l IH]; intros H; [constructor|]. apply Forall_cons_iff in H. destruct H as [Hb H]. specialize (IH H).
  destruct b as [t g|q|h body|lines]; cbn [join_texts]; try (now constructor).
  destruct (join_texts l) as [|[t2 g2| | |] r]; try (now constructor). destruct (oseqb g g2); [|now constructor]. apply Forall_cons_iff in IH. destruct IH. now constructor.
Qed.
Definition known (l : list (nat * str)) : Prop := forall m, In m (map snd l) -> f m = gettext py m.
Lemma known_app : forall a b, known (a ++ b) -> known a /\ known b.
Proof. intros a b H. split; intros m I1; apply H; rewrite map_app, in_app_iff; tauto. Qed.
Lemma quiet_nodes_go : forall l, (fix go (l : list node) : Prop := match l with [] => True | m :: l' => quiet_node m /\ go l' end) l <-> Forall quiet_node l.
Proof. induction l as [|b l IH]; [split; [constructor|trivial]|]. rewrite Forall_cons_iff, IH. reflexivity. Qed.
Lemma bodies_quiet : forall l, Forall (fun n => quiet_node n -> known (node_messages n) -> Forall quiet (program n)) l ->
  Forall quiet_node l -> known (flat_map node_messages l) -> Forall quiet (join_texts (flat_map program l)).
Proof.
  intros l F. induction F as [|n l Hn F IH]; intros Q K; [constructor|]. apply Forall_cons_iff in Q. destruct Q as [Qn Q]. cbn [flat_map] in *. apply known_app in K. destruct K as [Kn K].
  apply join_quiet. apply Forall_app. split; [now apply Hn|]. clear Hn Qn Kn IH. revert Q K. induction F as [|n' l Hn F IH]; intros Q K; [constructor|].
  apply Forall_cons_iff in Q. destruct Q as [Qn Q]. cbn [flat_map] in *. apply known_app in K. destruct K as [Kn K]. apply Forall_app. split; [now apply Hn|now apply IH].
Qed.
Lemma program_quiet : forall n, quiet_node n -> known (node_messages n) -> Forall quiet (program n).
Proof.
  assert (St1 : forall q, quiet_stmt q -> Forall quiet [St q]) by (intros q H; constructor; [exact H|constructor]).
  assert (Bl1 : forall h b, quiet_stmt h -> Forall quiet b -> Forall quiet [Bl h b]) by (intros h b H Hb; constructor; [apply quiet_bl; now split|constructor]).
  induction n using node_ind'; intros Q K; cbn [program S_I18nRun.quiet_node node_messages] in *; rewrite ?go_program; rewrite ?go_messages in K; rewrite ?quiet_nodes_go in Q.
  all: try (apply St1; exact Logic.I).
  - (* def *) destruct b as [|n0 b]; [constructor; [destruct i; exact Logic.I|]; apply Bl1; [exact Logic.I|now apply St1]|]. set (w := n0 :: b) in *.
    constructor; [destruct i; exact Logic.I|]. apply Bl1; [exact Logic.I|]. now apply bodies_quiet.
  - (* call *) destruct Q as [Qc Q]. constructor; [exact Logic.I|]. constructor; [apply quiet_bl; split; [exact Logic.I|now apply bodies_quiet]|]. now apply St1.
  - (* for *) destruct Q. apply Bl1; [assumption|now apply bodies_quiet].
  - (* with *) destruct Q as [Qv Q]. constructor; [exact Logic.I|]. rewrite !Forall_app. split; [|split; [now apply bodies_quiet|now apply St1]].
    apply Forall_map. exact Qv.
  - (* switch *) destruct Q as [Qd Q]. constructor; [exact Qd|]. constructor; [exact Logic.I|]. rewrite Forall_app. split; [now apply bodies_quiet|now apply St1].
  - destruct Q. apply Bl1; [assumption|now apply bodies_quiet].
  - destruct Q. apply Bl1; [assumption|now apply bodies_quiet].
  - apply Bl1; [exact Logic.I|now apply bodies_quiet].
  - constructor; [exact Q|constructor].
  - (* trans *) apply St1. unfold trans_stmt in *. unfold S_I18nRun.quiet_guard in Q. destruct (strip t) as [|c s]; cbn [quiet_stmt]; [now destruct (truthy_guard g)|]. split; [now destruct (truthy_guard g)|]. apply K. now left.
  - destruct s; apply St1; exact Q.
  - (* attr *) destruct Q as (Qg & Qx & Q). unfold S_I18nRun.quiet_guard in Qg.
    assert (Body : Forall quiet (match v with [] => [Tx [] None] | _ :: _ => join_texts (flat_map program v) end)).
    { destruct v as [|v0 v]; [constructor; [exact Logic.I|constructor]|]. now apply bodies_quiet. }
    assert (At : forall gn, Forall quiet [Bl (PDefGen gn) (match v with [] => [Tx [] None] | _ :: _ => join_texts (flat_map program v) end); St (PCollect gn); Bl (PForAttr x a gn m) [St (PYield x)]]).
    { intros gn. constructor; [apply quiet_bl; split; [exact Logic.I|exact Body]|]. constructor; [exact Logic.I|]. apply Bl1; [exact Logic.I|now apply St1]. }
    destruct (truthy_guard g); [apply Bl1; [exact Qg|apply At]|apply At].
  - (* attrs *) destruct Q as (Qg & Qe & Qx). unfold S_I18nRun.quiet_guard in Qg.
    destruct (truthy_guard g); [apply Bl1; [exact Qg|]|]; (apply Bl1; [exact Qe|now apply St1]).
  - constructor; [exact Q|constructor].
Qed.
Lemma programs_quiet : forall l, Forall quiet_node l -> known (flat_map node_messages l) -> Forall quiet (programs l).
Proof. intros l Q K. apply bodies_quiet; [|exact Q|exact K]. apply Forall_forall. intros n _. apply program_quiet. Qed.

(** ** Values, instances and variables: the translating function is under its own names only *)
Definition quiet_fun (t : tplfun (str * bcode)) : Prop := match f_code _ t with Code _ (_, b) => Forall quiet b | Trampoline _ _ => True end.
Definition quiet_val (g : bval) : Prop :=
  match g with
  | GObj _ _ (RC _ b _ _) => Forall quiet b
  | GFun _ _ t => quiet_fun t
  | GGettext _ _ => False
  | _ => True
  end.
Definition quiet_entry (kv : str * bval) : Prop := quiet_val (snd kv) \/ snd kv = GGettext _ _ /\ In (fst kv) translator_names.
Notation quiet_dict := (Forall quiet_entry).
Notation bcls := (cls (fobj bcode) (str * bcode)).
Notation bheap := (heap (fobj bcode) (str * bcode)).
Definition quiet_class (c : bcls) : Prop := Forall (fun kf => Forall quiet (snd (snd kf))) (M_Template.methods _ _ c) /\ quiet_dict (base_globals _ _ c).
Definition quiet_context (c : context (fobj bcode) (str * bcode)) : Prop := match c with Given _ _ d => quiet_dict d | GlobalsOf _ _ _ => True end.
Definition quiet_inst (x : inst (fobj bcode) (str * bcode)) : Prop :=
  quiet_context (i_context _ _ x) /\ quiet_dict (i_globals _ _ x) /\ Forall (fun kt => quiet_fun (snd kt)) (i_attrs _ _ x).
Notation quiet_heap := (Forall quiet_inst).
Definition quiet_frame (fr : frame bcode) : Prop := Forall (fun kv => quiet_val (snd kv)) (fr_vars fr).
Definition quiet_world (w : world bcode) : Prop := quiet_heap (w_heap w) /\ Forall quiet_frame (w_frames w).
Definition quiet_state (s : state) : Prop := quiet_world (s_world s) /\ forall i, Forall (Forall quiet_val) (s_with s i).

Lemma get_in : forall A k (d : list (str * A)) v, get k d = Some v -> In (k, v) d.
Proof.
  induction d as [|[k' v'] d IH]; intros v E; cbn [get] in E; [discriminate|]. destruct (seqb k k') eqn:Ek; [|right; now apply IH].
  apply seqb_eq in Ek. subst k'. left. congruence.
Qed.
Lemma set_forall : forall A (P : str * A -> Prop) k v d, P (k, v) -> Forall P d -> Forall P (set k v d).
Proof.
  intros A P k v d Hk H. induction H as [|[k' v'] d H0 H IH]; cbn [set]; [now constructor|]. destruct (seqb k k'); now constructor.
Qed.
Lemma update_forall : forall (d d' : dict (fobj bcode) (str * bcode)), quiet_dict d -> quiet_dict d' -> quiet_dict (update _ _ d d').
Proof.
  intros d d' H H'. unfold update. revert d H. induction H' as [|[k v] d' H0 H' IH]; intros d H; cbn [fold_left fst snd]; [exact H|]. apply IH. now apply set_forall.
Qed.
Lemma put_forall : forall (P : inst (fobj bcode) (str * bcode) -> Prop) h i x, Forall P h -> P x -> Forall P (put _ _ h i x).
Proof. intros P h i x H Hx. revert i. induction H as [|y h H0 H IH]; intros i; [constructor|]. destruct i; cbn [put]; constructor; auto. Qed.
Lemma nth_forall : forall A (P : A -> Prop) l i x, Forall P l -> nth_error l i = Some x -> P x.
Proof. intros A P l i x H E. rewrite Forall_forall in H. apply H. now apply nth_error_In in E. Qed.
Lemma globals_quiet : forall h i, quiet_heap h -> quiet_dict (globals _ _ h i).
Proof. intros h i H. unfold globals. destruct (nth_error h i) as [x|] eqn:E; [|constructor]. apply (nth_forall _ _ _ _ _ H E). Qed.
Lemma attrs_quiet : forall h i, quiet_heap h -> Forall (fun kt => quiet_fun (snd kt)) (attrs _ _ h i).
Proof. intros h i H. unfold attrs. destruct (nth_error h i) as [x|] eqn:E; [|constructor]. apply (nth_forall _ _ _ _ _ H E). Qed.
Lemma with_globals_quiet : forall h i d, quiet_heap h -> quiet_dict d -> quiet_heap (with_globals _ _ h i d).
Proof.
  intros h i d H Hd. unfold with_globals. destruct (nth_error h i) as [x|] eqn:E; [|exact H]. apply put_forall; [exact H|].
  destruct (nth_forall _ _ _ _ _ H E) as (H1 & H2 & H3). now repeat split.
Qed.
Lemma with_attrs_quiet : forall h i d, quiet_heap h -> Forall (fun kt => quiet_fun (snd kt)) d -> quiet_heap (with_attrs _ _ h i d).
Proof.
  intros h i d H Hd. unfold with_attrs. destruct (nth_error h i) as [x|] eqn:E; [|exact H]. apply put_forall; [exact H|].
  destruct (nth_forall _ _ _ _ _ H E) as (H1 & H2 & H3). now repeat split.
Qed.
Lemma entry : forall k (v : bval), quiet_val v -> quiet_entry (k, v).
Proof. intros k v H. now left. Qed.
Lemma get_entry : forall k (d : dict (fobj bcode) (str * bcode)) v, quiet_dict d -> get k d = Some v -> quiet_entry (k, v).
Proof. intros k d v H E. apply get_in in E. rewrite Forall_forall in H. now apply H. Qed.
Lemma bound_quiet : forall i ms, Forall (fun kf : str * (str * bcode) => Forall quiet (snd (snd kf))) ms -> Forall (fun kt => quiet_fun (snd kt)) (bound _ i ms).
Proof. intros i ms H. unfold bound. apply Forall_map. eapply Forall_impl; [|exact H]. intros [k [d b]] Hb. exact Hb. Qed.
Lemma init_quiet : forall i c d, quiet_class c -> quiet_dict d -> quiet_dict (init_globals _ _ i c d).
Proof.
  intros i c d [Hm Hb] Hd. unfold init_globals. apply set_forall; [now apply entry|].
  match goal with |- context [match get _ ?g with _ => _ end] => assert (H : quiet_dict g) end.
  { apply update_forall; [|exact Hd]. apply update_forall.
    - apply update_forall; [|exact Hb]. unfold helpers. repeat (apply Forall_cons; [try (left; exact Logic.I)|]); [|constructor]. right. split; [reflexivity|now left].
    - apply Forall_map. eapply Forall_impl; [|exact (bound_quiet i _ Hm)]. intros [k t] Ht. left. exact Ht. }
  destruct (get (L "gettext") _) as [v|] eqn:E; [|exact H]. apply set_forall; [|exact H]. pose proof (get_entry _ _ _ H E) as [Q|[Q _]]; [now left|]. right. split; [exact Q|right; now left].
Qed.
Lemma context_quiet : forall h c, quiet_heap h -> quiet_context c -> quiet_dict (context_of _ _ h c).
Proof. intros h c H Hc. destruct c; [exact Hc|now apply globals_quiet]. Qed.
Lemma new_quiet : forall h c ctx h' i, quiet_heap h -> quiet_class c -> quiet_context ctx -> new _ _ h c ctx = (h', i) -> quiet_heap h'.
Proof.
  intros h c ctx h' i H Hc Hx E. unfold new in E. assert (h' = h ++ [Inst _ _ c ctx (init_globals _ _ (length h) c (context_of _ _ h ctx)) (bound _ (length h) (M_Template.methods _ _ c))]) as -> by congruence.
  apply Forall_app. split; [exact H|]. constructor; [|constructor]. split; [exact Hx|]. split; [apply init_quiet; [exact Hc|now apply context_quiet]|]. apply bound_quiet, Hc.
Qed.
Lemma overrides_quiet : forall d, quiet_dict d -> quiet_dict (overrides (fobj bcode) (str * bcode) d).
Proof. intros d H. unfold overrides. apply Forall_forall. intros kv I1. apply filter_In in I1. rewrite Forall_forall in H. now apply H. Qed.
Lemma inherit_quiet : forall i kv h, quiet_heap h -> quiet_entry kv -> quiet_heap (inherit _ _ i h kv).
Proof.
  intros i [k v] h H Hk. unfold inherit. destruct (seqb k (L "__main__") || negb (is_fun _ _ v)) eqn:E; [exact H|].
  set (h1 := if has k (globals _ _ h i) then h else with_globals _ _ h i (set k v (globals _ _ h i))).
  assert (H1 : quiet_heap h1). { unfold h1. destruct (has k _); [exact H|]. apply with_globals_quiet; [exact H|]. apply set_forall; [exact Hk|now apply globals_quiet]. }
  change (quiet_heap (if hasattr _ _ h1 i k then h1 else with_attrs _ _ h1 i (set k (TplFunc _ (Trampoline _ k) i) (attrs _ _ h1 i)))).
  destruct (hasattr _ _ h1 i k); [exact H1|]. apply with_attrs_quiet; [exact H1|]. apply set_forall; [exact Logic.I|now apply attrs_quiet].
Qed.
Lemma inherits_quiet : forall i l h, quiet_heap h -> quiet_dict l -> quiet_heap (fold_left (inherit _ _ i) l h).
Proof. intros i l h H Hl. revert h H. induction Hl as [|kv l Hk Hl IH]; intros h H; cbn [fold_left]; [exact H|]. apply IH. now apply inherit_quiet. Qed.
Lemma set_global_quiet : forall h i k v, quiet_heap h -> quiet_entry (k, v) -> quiet_heap (with_globals _ _ h i (set k v (globals _ _ h i))).
Proof. intros h i k v H Hv. apply with_globals_quiet; [exact H|]. apply set_forall; [exact Hv|now apply globals_quiet]. Qed.
Lemma extend_quiet : forall h i c h' p, quiet_heap h -> quiet_class c -> extend _ _ h i c = Ok (h', p) -> quiet_heap h'.
Proof.
  intros h i c h' p H Hc E. unfold extend in E. destruct (nth_error h i) as [x|] eqn:Ei; [|discriminate]. destruct (new _ _ h c (i_context _ _ x)) as [h1 p1] eqn:En.
  assert (H1 : quiet_heap h1) by (apply (new_quiet _ _ _ _ _ H Hc (proj1 (nth_forall _ _ _ _ _ H Ei)) En)).
  set (h2 := with_globals _ _ h1 p1 (update _ _ (globals _ _ h1 p1) (overrides _ _ (globals _ _ h1 i)))) in *.
  assert (H2 : quiet_heap h2) by (apply with_globals_quiet; [exact H1|]; apply update_forall; [now apply globals_quiet|apply overrides_quiet; now apply globals_quiet]).
  set (h3 := fold_left (inherit _ _ i) (globals _ _ h2 p1) h2) in *. assert (H3 : quiet_heap h3) by (apply inherits_quiet; [exact H2|now apply globals_quiet]).
  set (h4 := with_globals _ _ h3 p1 (set (L "child") (GInst _ _ i) (globals _ _ h3 p1))) in *. assert (H4 : quiet_heap h4) by (apply set_global_quiet; [exact H3|now left]).
  set (h5 := with_globals _ _ h4 p1 (set (L "local") (GInst _ _ p1) (globals _ _ h4 p1))) in *. assert (H5 : quiet_heap h5) by (apply set_global_quiet; [exact H4|now left]).
  destruct (get (L "self") (globals _ _ h5 i)) as [s|] eqn:Es; [|discriminate].
  set (h6 := with_globals _ _ h5 p1 (set (L "self") s (globals _ _ h5 p1))) in *. assert (H6 : quiet_heap h6).
  { apply set_global_quiet; [exact H5|]. destruct (get_entry _ _ _ (globals_quiet h5 i H5) Es) as [Q|[_ Q]]; [now left|]. cbn in Q. exfalso. destruct Q as [Q|[Q|[]]]; discriminate Q. }
  set (h7 := with_globals _ _ h6 i (set (L "parent") (GInst _ _ p1) (globals _ _ h6 i))) in *. assert (H7 : quiet_heap h7) by (apply set_global_quiet; [exact H6|now left]).
  set (h8 := with_globals _ _ h7 i (set (L "local") (GInst _ _ i) (globals _ _ h7 i))) in *. assert (H8 : quiet_heap h8) by (apply set_global_quiet; [exact H7|now left]).
  assert (h' = h8) as -> by congruence. exact H8.
Qed.
Lemma import_quiet : forall h name a c g h' r, quiet_heap h -> quiet_class c -> import_ _ _ h name a c g = (h', r) -> quiet_heap h'.
Proof.
  intros h name a c g h' r H Hc E. unfold import_ in E. destruct (new _ _ h c (GlobalsOf _ _ g)) as [h1 r1] eqn:En. assert (H1 : quiet_heap h1) by (refine (new_quiet _ _ _ _ _ H Hc _ En); exact Logic.I).
  match type of E with (?x, _) = _ => assert (h' = x) as -> by congruence end. apply set_global_quiet; [exact H1|now left].
Qed.

(** ** Names *)
Lemma find_name_quiet : forall fs err scopes x v, Forall quiet_frame fs -> find_name fs err scopes x = Some (Ok v) -> quiet_val v.
Proof.
  intros fs err scopes x v H. revert err. induction scopes as [|i scopes IH]; intros err E; cbn [find_name] in E; [discriminate|].
  destruct (nth_error fs i) as [fr|] eqn:Ef; [|now apply (IH "NameError"%string)]. destruct (smem x (fr_names fr)); [|now apply (IH "NameError"%string)].
  destruct (get x (fr_vars fr)) as [v'|] eqn:Eg; [|discriminate]. assert (v' = v) as -> by congruence. apply get_in in Eg.
  pose proof (nth_forall _ _ _ _ _ H Ef) as Hv. unfold quiet_frame in Hv. rewrite Forall_forall in Hv. exact (Hv _ Eg).
Qed.
Lemma lookup_quiet : forall w p x v, quiet_world w -> ~ In x translator_names -> lookup py w p x = Ok v -> quiet_val v.
Proof.
  intros w p x v [Hh Hf] Nx E. unfold lookup in E. destruct (find_name _ _ _ x) as [r|] eqn:En; [subst r; now apply (find_name_quiet _ _ _ _ _ Hf En)|].
  unfold resolve in E. destruct (get x (globals _ _ (w_heap w) (p_inst p))) as [v'|] eqn:Eg.
  - assert (v' = v) as -> by congruence. destruct (get_entry _ _ _ (globals_quiet _ _ Hh) Eg) as [Q|[_ Q]]; [exact Q|contradiction].
  - destruct (builtin_value py x) as [b|]; cbn [option_map] in E; [|discriminate]. assert (v = val b) as -> by congruence. exact Logic.I.
Qed.
Lemma set_name_quiet : forall w p x v, quiet_world w -> quiet_val v -> quiet_world (set_name w p x v).
Proof.
  intros w p x v [Hh Hf] Hv. unfold set_name. destruct (p_scopes p) as [|i ss]; [now split|]. destruct (nth_error (w_frames w) i) as [fr|] eqn:Ef; [|now split].
  split; [exact Hh|]. cbn [w_frames]. pose proof (nth_forall _ _ _ _ _ Hf Ef) as Hr.
  assert (P : forall fs j y, Forall quiet_frame fs -> quiet_frame y -> Forall quiet_frame (put_frame fs j y)).
  { intros fs j y H Hy. revert j. induction H as [|z fs H0 H IH]; intros j; [constructor|]. destruct j; cbn [put_frame]; constructor; auto. }
  apply P; [exact Hf|]. unfold quiet_frame. cbn [fr_vars]. now apply set_forall.
Qed.
Lemma set_names_quiet : forall l w p, quiet_world w -> Forall (fun kv => quiet_val (snd kv)) l -> quiet_world (set_names w p l).
Proof.
  induction l as [|[x v] l IH]; intros w p Hw H; [exact Hw|]. apply Forall_cons_iff in H. destruct H as [Hv H]. cbn [set_names]. apply IH; [now apply set_name_quiet|exact H].
Qed.
Lemma local_quiet : forall w p x v, quiet_world w -> local_value w p x = Some v -> quiet_val v.
Proof.
  intros w p x v [_ Hf] E. unfold local_value in E. destruct (p_scopes p) as [|i ss]; [discriminate|]. destruct (nth_error (w_frames w) i) as [fr|] eqn:Ef; [|discriminate].
  apply get_in in E. pose proof (nth_forall _ _ _ _ _ Hf Ef) as Hr. unfold quiet_frame in Hr. rewrite Forall_forall in Hr. exact (Hr _ E).
Qed.

(** ** Expressions *)
Lemma eval_arg_quiet : forall w p a v, quiet_world w -> quiet_names (arg_names a) -> eval_arg py w p a = Ok v -> quiet_val v.
Proof.
  intros w p a v Hw Q E. destruct a as [x|xs g]; cbn [eval_arg arg_names] in *; [apply Forall_cons_iff in Q; now apply (lookup_quiet w p x)|].
  destruct (g _) as [u|]; [|discriminate]. cbn [rmap] in E. assert (v = val u) as -> by congruence. exact Logic.I.
Qed.
Lemma eval_args_quiet : forall w p l r, quiet_world w -> quiet_names (flat_map (fun ka => arg_names (snd ka)) l) -> eval_args py w p l = Ok r -> Forall (fun kv => quiet_val (snd kv)) r.
Proof.
  induction l as [|[k a] l IH]; intros r Hw Q E; cbn [eval_args flat_map] in *; [assert (r = []) as -> by congruence; constructor|].
  unfold S_I18nRun.quiet_names in Q. rewrite Forall_app in Q. destruct Q as [Qa Q]. destruct (eval_arg py w p a) as [v|] eqn:Ea; [|discriminate]. cbn [rbind] in E.
  destruct (eval_args py w p l) as [r'|]; [|discriminate]. cbn [rmap] in E. assert (r = (k, v) :: r') as -> by congruence. constructor; [now apply (eval_arg_quiet w p a)|now apply IH].
Qed.
Lemma target_quiet : forall fuel h t c i, quiet_heap h -> quiet_fun t -> target _ _ (fun k => option_map val (builtin_value py k)) fuel h t = Ok (c, i) -> Forall quiet (snd c).
Proof.
  induction fuel as [|fuel IH]; intros h [fc j] c i H Ht E; cbn [target f_code f_inst] in E; unfold quiet_fun in Ht; cbn [f_code] in Ht; destruct fc as [[d b]|k]; try discriminate.
  - assert (c = (d, b)) as -> by congruence. exact Ht.
  - assert (c = (d, b)) as -> by congruence. exact Ht.
  - destruct (resolve _ _ _ h j (L "parent")) as [v|]; [|discriminate]. cbn [rbind] in E. destruct (as_instance _ _ h v) as [p|]; [|discriminate]. cbn [rbind] in E.
    unfold getattr in E. destruct (get k (attrs _ _ h p)) as [t|] eqn:Eg; [|discriminate]. cbn [rbind] in E. apply (IH h t c i H); [|exact E].
    apply get_in in Eg. pose proof (attrs_quiet h p H) as Q. rewrite Forall_forall in Q. exact (Q _ Eg).
Qed.
Definition quiet_callable (c : callable bcode) : Prop := Forall quiet (snd (fst (fst c))).
Lemma callable_quiet : forall h t c, quiet_heap h -> quiet_fun t -> tpl_callable py h t = Ok c -> quiet_callable c.
Proof.
  intros h t c H Ht E. unfold tpl_callable in E. destruct (target _ _ _ _ h t) as [[[d b] i]|] eqn:Et; [|discriminate]. cbn [rmap fst snd] in E.
  assert (c = (d, b, i, [])) as -> by congruence. exact (target_quiet _ _ _ _ _ H Ht Et).
Qed.
Lemma method_quiet : forall h i k t, quiet_heap h -> M_Run.method h i k = Ok t -> quiet_fun t.
Proof.
  intros h i k t H E. unfold M_Run.method in E. unfold getattr in E. destruct (get k (attrs _ _ h i)) as [u|] eqn:Eg.
  - assert (u = t) as -> by congruence. apply get_in in Eg. pose proof (attrs_quiet h i H) as Q. rewrite Forall_forall in Q. exact (Q _ Eg).
  - destruct (smem k template_attributes); discriminate.
Qed.
Definition quiet_found (x : found bcode) : Prop := match x with FTemplate c => quiet_callable c | FBuiltin g => quiet_val g | _ => True end.
Lemma found_quiet : forall w p c x, quiet_world w -> quiet_names (callee_names c) -> find_callee py w p c = Ok x -> quiet_found x.
Proof.
  intros w p c x Hw Q E. destruct c as [g|o g]; cbn [find_callee callee_names] in *; apply Forall_cons_iff in Q; destruct Q as [Q _];
    match type of E with rbind ?r _ = _ => destruct r as [v|] eqn:El; [|discriminate] end; cbn [rbind] in E; pose proof (lookup_quiet w p _ v Hw Q El) as Hv.
  - destruct v as [[u|d b i ss]|i|t|i|i| | | |]; try discriminate; try (assert (x = FBuiltin _) as -> by (symmetry; injection E; intros ->; reflexivity); exact Hv).
    + assert (x = FObject u) as -> by congruence. exact Logic.I.
    + assert (x = FTemplate (d, b, i, ss)) as -> by congruence. exact Hv.
    + destruct (tpl_callable py (w_heap w) t) as [c|] eqn:Et; [|discriminate]. cbn [rmap] in E. assert (x = FTemplate c) as -> by congruence. exact (callable_quiet _ _ _ (proj1 Hw) Hv Et).
  - destruct v as [[u|d b i ss]|i|t|i|i| | | |]; try discriminate.
    + assert (x = FMethod u g) as -> by congruence. exact Logic.I.
    + destruct (M_Run.method (w_heap w) i g) as [t|] eqn:Em; [|discriminate]. cbn [rbind] in E. destruct (tpl_callable py (w_heap w) t) as [c|] eqn:Et; [|discriminate]. cbn [rmap] in E.
      assert (x = FTemplate c) as -> by congruence. exact (callable_quiet _ _ _ (proj1 Hw) (method_quiet _ _ _ _ (proj1 Hw) Em) Et).
Qed.
Lemma builtin_same : forall (h : bheap) g args, quiet_val g -> call_builtin py' h g args = call_builtin py h g args.
Proof. intros h g args Hg. destruct g; try reflexivity. destruct Hg. Qed.
Lemma eval_same : forall w p e, quiet_world w -> quiet_names (expr_names e) -> same quiet_val (eval py w p e) (eval py' w p e).
Proof.
  intros w p e Hw Q. destruct e as [x|o k|xs g|c args].
  - apply (same_refl _ _ (lookup py w p x)). intros v E. apply Forall_cons_iff in Q. now apply (lookup_quiet w p x).
  - apply (same_refl _ _ (eval py w p (EAttr o k))). intros v E. cbn [eval] in E. apply Forall_cons_iff in Q. destruct (lookup py w p o) as [u|] eqn:El; [|discriminate]. cbn [rbind] in E.
    destruct u as [[u|d b i ss]|i|t|i|i| | | |]; try discriminate.
    + destruct (value_attr py u k) as [z|]; [|discriminate]. cbn [rmap] in E. assert (v = val z) as -> by congruence. exact Logic.I.
    + destruct (M_Run.method (w_heap w) i k) as [t|] eqn:Em; [|discriminate]. cbn [rmap] in E. assert (v = GFun _ _ t) as -> by congruence. exact (method_quiet _ _ _ _ (proj1 Hw) Em).
  - apply (same_refl _ _ (eval py w p (EFun xs g))). intros v E. cbn [eval] in E. destruct (g _) as [z|]; [|discriminate]. cbn [rmap] in E. assert (v = val z) as -> by congruence. exact Logic.I.
  - cbn [expr_names] in Q. unfold S_I18nRun.quiet_names in Q. rewrite Forall_app in Q. destruct Q as [Qc Qa]. cbn [eval].
    apply (same_bind _ _ quiet_found); [apply (same_refl _ _ (find_callee py w p c)); intros x; now apply found_quiet|]. intros x Hx.
    apply (same_bind _ _ (Forall (fun kv : option str * bval => quiet_val (snd kv)))); [apply (same_refl _ _ (eval_args py w p args)); intros r; now apply eval_args_quiet|]. intros r Hr.
    destruct x as [c0|u|u k|g]; [apply same_raise| | |].
    + apply (same_refl _ _ (rmap val (call_object py u (values r)))). intros v E. destruct (call_object py u _) as [v0|]; [|discriminate]. cbn [rmap] in E. assert (v = val v0) as -> by congruence. exact Logic.I.
    + apply (same_refl _ _ (rmap val (call_method py u k (values r)))). intros v E. destruct (call_method py u k _) as [v0|]; [|discriminate]. cbn [rmap] in E. assert (v = val v0) as -> by congruence. exact Logic.I.
    + rewrite (builtin_same _ _ _ Hx). apply same_refl. intros v E. destruct (call_builtin py _ g _) as [v0|]; [|discriminate]. cbn [rmap] in E. assert (v = val v0) as -> by congruence. exact Logic.I.
Qed.
Lemma evalue_same : forall w p x, quiet_world w -> quiet_text x -> same (fun _ => True) (evalue py w p x) (evalue py' w p x).
Proof. intros w p x Hw Q. unfold evalue. apply (same_map _ _ quiet_val); [now apply eval_same|]. intros v _. now split. Qed.
Lemma condition_same : forall w p x, quiet_world w -> quiet_text x -> same (fun _ => True) (condition py w p x) (condition py' w p x).
Proof. intros w p x Hw Q. unfold condition. apply (same_map _ _ (fun _ => True)); [now apply evalue_same|]. intros v _. now split. Qed.
Lemma rseq_forall : forall A B (P : B -> Prop) (g : A -> result B) l r, (forall x y, g x = Ok y -> P y) -> rseq (map g l) = Ok r -> Forall P r.
Proof.
  intros A B P g l. induction l as [|x l IH]; intros r H E; cbn [map rseq] in E; [assert (r = []) as -> by congruence; constructor|].
  destruct (g x) as [y|] eqn:Eg; [|discriminate]. cbn [rbind] in E. destruct (rseq (map g l)) as [r'|]; [|discriminate]. cbn [rmap] in E. assert (r = y :: r') as -> by (cbn [rbind] in E; congruence).
  constructor; [now apply (H x)|now apply IH].
Qed.
Lemma combine_quiet : forall xs (vs : list value), Forall (fun kv : str * bval => quiet_val (snd kv)) (combine xs (map val vs)).
Proof. induction xs as [|x xs IH]; intros [|v vs]; cbn [map combine]; try constructor; [exact Logic.I|apply IH]. Qed.
Lemma rounds_same : forall w p d, quiet_world w -> quiet_names (expr_names (snd (parse_for py d))) ->
  same (Forall (Forall (fun kv : str * bval => quiet_val (snd kv)))) (rounds py w p d) (rounds py' w p d).
Proof.
  intros w p d Hw Q. unfold rounds. change (parse_for py' d) with (parse_for py d). destruct (parse_for py d) as [xs e]. cbn [snd] in Q.
  apply (same_bind _ _ quiet_val); [now apply eval_same|]. intros g _. change (iterate py') with (iterate py). change (unpack py') with (unpack py). apply same_refl. intros r E.
  destruct (iterate py (as_value g)) as [items|]; [|discriminate]. cbn [rbind] in E. revert E. apply rseq_forall. intros v y E.
  destruct xs as [|x [|x2 xs]].
  - destruct (unpack py v) as [vs|]; [|discriminate]. cbn [rbind] in E. destruct (Nat.eqb _ _); [|discriminate]. injection E as <-. constructor.
  - injection E as <-. constructor; [exact Logic.I|constructor].
  - destruct (unpack py v) as [vs|]; [|discriminate]. cbn [rbind] in E. destruct (Nat.eqb _ _); [|discriminate]. injection E as <-. exact (combine_quiet (x :: x2 :: xs) vs).
Qed.
Lemma attributes_same : forall w p x, quiet_world w -> quiet_text x -> same (fun _ => True) (attributes py w p x) (attributes py' w p x).
Proof. intros w p x Hw Q. unfold attributes. apply (same_bind _ _ (fun _ => True)); [now apply evalue_same|]. intros v _. now split. Qed.
Lemma bind_some_quiet : forall xs vs w p, quiet_world w -> quiet_world (bind_some w p xs vs).
Proof. induction xs as [|x xs IH]; intros [|[v|] vs] w p Hw; cbn [bind_some]; try exact Hw; apply IH; [now apply set_name_quiet|exact Hw]. Qed.
Lemma run_block_same : forall l w p, quiet_world w -> Forall quiet_python l -> same (fun ow => quiet_world (snd ow)) (run_block py w p l) (run_block py' w p l).
Proof.
  induction l as [|s l IH]; intros w p Hw Q; [now apply same_ok|]. apply Forall_cons_iff in Q. destruct Q as [Qs Q]. destruct s as [x e|xs ys g]; cbn [run_block].
  - apply (same_bind _ _ quiet_val); [now apply eval_same|]. intros v Hv. apply IH; [now apply set_name_quiet|exact Q].
  - change (reads py' w p xs) with (reads py w p xs). apply (same_bind _ _ (fun _ => True)); [now apply same_refl|]. intros r _.
    apply (same_map _ _ (fun ow : list value * world bcode => quiet_world (snd ow))); [apply IH; [now apply bind_some_quiet|exact Q]|]. intros ow H. now split.
Qed.
Lemma bind_args_quiet : forall d args r, Forall (fun kv : option str * bval => quiet_val (snd kv)) args -> bind_args py d args = Ok r -> Forall (fun kv : str * bval => quiet_val (snd kv)) r.
Proof.
  intros d args r H E. unfold bind_args in E. destruct (bind_params py d (map fst args)) as [l|]; [|discriminate]. cbn [rbind] in E. revert E. apply rseq_forall. intros [x [n|v]] y E; cbn [fst snd] in E.
  - destruct (nth_error args n) as [a|] eqn:En; [|discriminate]. injection E as <-. exact (nth_forall _ _ _ _ _ H En).
  - injection E as <-. exact Logic.I.
Qed.

(** ** Statements *)
Section Exec.
Variable load : bool -> str -> result bcls.
Hypothesis Hload : forall fragment name c, load fragment name = Ok c -> quiet_class c.
Variable invoke invoke' : callable bcode -> list (str * bval) -> state -> result (list value * state).
Definition invokes_same : Prop := forall c params s, quiet_callable c -> Forall (fun kv : str * bval => quiet_val (snd kv)) params -> quiet_state s ->
  same (fun os => quiet_state (snd os)) (invoke c params s) (invoke' c params s).
Hypothesis Hinv : invokes_same.
Variable p : place.
Notation ends := (fun r : list value * M_Exec.chain * state => quiet_state (snd r)).

Lemma set_world_quiet : forall s w, quiet_state s -> quiet_world w -> quiet_state (set_world s w).
Proof. intros s w [_ H2] H. now split. Qed.
Lemma call_function_same : forall c args s, quiet_callable c -> Forall (fun kv : option str * bval => quiet_val (snd kv)) args -> quiet_state s ->
  same (fun vs => quiet_state (snd vs)) (call_function py invoke c args s) (call_function py' invoke' c args s).
Proof.
  intros c args s Hc Ha Hs. unfold call_function. apply (same_bind _ _ (Forall (fun kv : str * bval => quiet_val (snd kv)))).
  - apply (same_refl _ _ (bind_args py (fst (fst (fst c))) args)). intros r. now apply bind_args_quiet.
  - intros params Hp. apply (same_map _ _ (fun os : list value * state => quiet_state (snd os))); [now apply Hinv|]. intros os H. now split.
Qed.
Lemma show_value_same : forall x s, quiet_state s -> quiet_text x -> same (fun vs => quiet_state (snd vs)) (show_value py s_world invoke p x s) (show_value py' s_world invoke' p x s).
Proof.
  intros x s Hs Q. assert (D : same (fun vs : value * state => quiet_state (snd vs)) (rmap (fun v => (v, s)) (evalue py (s_world s) p x)) (rmap (fun v => (v, s)) (evalue py' (s_world s) p x))).
  { apply (same_map _ _ (fun _ => True)); [apply evalue_same; [apply Hs|exact Q]|]. intros v _. now split. }
  unfold show_value. change (parse py' x) with (parse py x). unfold S_I18nRun.quiet_text in Q. destruct (parse py x) as [| | |c args]; try exact D.
  cbn [expr_names] in Q. unfold S_I18nRun.quiet_names in Q. rewrite Forall_app in Q. destruct Q as [Qc Qa].
  apply (same_bind _ _ quiet_found); [apply (same_refl _ _ (find_callee py (s_world s) p c)); intros y; apply found_quiet; [apply Hs|exact Qc]|]. intros [t|u|u k|g] Hx; try exact D.
  apply (same_bind _ _ (Forall (fun kv : option str * bval => quiet_val (snd kv)))); [apply (same_refl _ _ (eval_args py (s_world s) p args)); intros r; apply eval_args_quiet; [apply Hs|exact Qa]|].
  intros r Hr. now apply call_function_same.
Qed.
Lemma translate_same : forall (w : world bcode) t, f t = gettext py t -> same (fun _ => True) (translate py w p t) (translate py' w p t).
Proof.
  intros w t E. split; [|trivial]. unfold translate. change (instance py' w p (L "local")) with (instance py w p (L "local")). destruct (instance py w p (L "local")) as [i|]; [|reflexivity]. cbn [rbind].
  destruct (get _ _) as [[[v|d b j ss]|j|u|j|j| | | |]|]; try reflexivity. cbn [retranslated gettext]. now rewrite E.
Qed.
Lemma guarded_same : forall g v v' s, quiet_state s -> match g with Some c => quiet_text c | None => True end -> same (fun _ => True) v v' ->
  same ends (guarded py p g v s) (guarded py' p g v' s).
Proof.
  intros g v v' s Hs Q V. unfold guarded. destruct g as [c|].
  - apply (same_bind _ _ (fun _ => True)); [apply condition_same; [apply Hs|exact Q]|]. intros [|] _; [|now apply same_ok].
    apply (same_map _ _ (fun _ => True)); [exact V|]. intros y _. now split.
  - apply (same_map _ _ (fun _ => True)); [exact V|]. intros y _. now split.
Qed.
Lemma instance_same : forall (w : world bcode) k, same (fun _ => True) (instance py w p k) (instance py' w p k).
Proof. intros w k. now apply (same_refl _ _ (instance py w p k)). Qed.
Lemma new_stacks_quiet : forall s w i, quiet_state s -> quiet_world w -> quiet_state (new_stacks s w i).
Proof. intros s w i [_ H] Hw. split; [exact Hw|]. intros j. cbn [new_stacks s_with]. unfold upd. destruct (Nat.eqb j i); [constructor|apply H]. Qed.
Lemma import_template_quiet : forall w t a wr, quiet_world w -> import_template py load w p t a = Ok wr -> quiet_world (fst wr).
Proof.
  intros w t a wr [Hh Hf] E. unfold import_template in E. destruct (instance py w p (L "local")); [|discriminate]. cbn [rbind] in E. destruct (instance py w p (L "self")) as [g|]; [|discriminate]. cbn [rbind] in E.
  destruct (load true t) as [c|] eqn:El; [|discriminate]. cbn [rmap] in E. destruct (import_ _ _ (w_heap w) t a c g) as [h r] eqn:Ei. assert (wr = (World h (w_frames w), r)) as -> by congruence.
  split; [|exact Hf]. exact (import_quiet _ _ _ _ _ _ _ Hh (Hload _ _ _ El) Ei).
Qed.
Lemma extend_template_quiet : forall w t wr, quiet_world w -> extend_template py load w p t = Ok wr -> quiet_world (fst wr).
Proof.
  intros w t wr [Hh Hf] E. unfold extend_template in E. destruct (instance py w p (L "local")) as [i|]; [|discriminate]. cbn [rbind] in E.
  destruct (load false t) as [c|] eqn:El; [|discriminate]. cbn [rbind] in E. destruct (extend _ _ (w_heap w) i c) as [[h r]|] eqn:Ei; [|discriminate]. cbn [rmap fst snd] in E. assert (wr = (World h (w_frames w), r)) as -> by congruence.
  split; [|exact Hf]. exact (extend_quiet _ _ _ _ _ Hh (Hload _ _ _ El) Ei).
Qed.
Lemma main_quiet : forall h i c, quiet_heap h -> main_of py h i = Ok c -> quiet_callable c.
Proof.
  intros h i c H E. unfold main_of in E. unfold getattr in E. destruct (get (L "__main__") (attrs _ _ h i)) as [t|] eqn:Eg; [|discriminate]. cbn [rbind] in E.
  apply (callable_quiet h t c H); [|exact E]. apply get_in in Eg. pose proof (attrs_quiet h i H) as Q. rewrite Forall_forall in Q. exact (Q _ Eg).
Qed.
Lemma main_same : forall wr s, quiet_state s -> quiet_world (fst wr) ->
  same ends (rbind (main_of py (w_heap (s_world (new_stacks s (fst wr) (snd wr)))) (snd wr)) (fun c => rmap (fun vs => ([fst vs], M_Exec.CNone, snd vs)) (call_function py invoke c [] (new_stacks s (fst wr) (snd wr)))))
    (rbind (main_of py' (w_heap (s_world (new_stacks s (fst wr) (snd wr)))) (snd wr)) (fun c => rmap (fun vs => ([fst vs], M_Exec.CNone, snd vs)) (call_function py' invoke' c [] (new_stacks s (fst wr) (snd wr))))).
Proof.
  intros [w i] s Hs Hw. cbn [fst snd] in *. apply (same_bind _ _ quiet_callable).
  - apply (same_refl _ _ (main_of py (w_heap w) i)). intros c. apply main_quiet, Hw.
  - intros c Hc. apply (same_map _ _ (fun vs : value * state => quiet_state (snd vs))).
    + apply call_function_same; [exact Hc|constructor|now apply new_stacks_quiet].
    + intros vs H. now split.
Qed.
Lemma collect_same : forall n s, quiet_state s -> same ends (exec_stmt py load invoke p (PCollect n) s) (exec_stmt py' load invoke' p (PCollect n) s).
Proof.
  intros n s Hs. cbn [exec_stmt]. apply (same_bind _ _ (fun _ => True)); [apply instance_same|]. intros _ _.
  (* [lookup] of a generated name may find anything but a function makes sense *)
  apply (same_bind _ _ (fun g => match g with GObj _ _ (RC _ b _ _) => Forall quiet b | _ => True end)).
  - apply (same_refl _ _ (lookup py (s_world s) p n)). intros g E. unfold lookup in E. destruct Hs as [[Hh Hf] _]. destruct (find_name _ _ _ n) as [r|] eqn:En.
    + subst r. apply (find_name_quiet _ _ _ _ _ Hf) in En. destruct g as [[u|d b i ss]| | | | | | | |]; try exact Logic.I. exact En.
    + unfold resolve in E. destruct (get n (globals _ _ _ (p_inst p))) as [g'|] eqn:Eg.
      * assert (g' = g) as -> by congruence. destruct (get_entry _ _ _ (globals_quiet _ _ Hh) Eg) as [Q|[Q _]]; [|cbn [snd] in Q; rewrite Q; exact Logic.I]. destruct g as [[u|d b i ss]| | | | | | | |]; try exact Logic.I. exact Q.
      * destruct (builtin_value py n) as [u|]; [|discriminate]. cbn [option_map] in E. assert (g = val u) as -> by congruence. exact Logic.I.
  - intros [[u|d b i ss]| | | | | | | |] Hg; try apply same_raise. apply (same_bind _ _ (fun os : list value * state => quiet_state (snd os))); [apply Hinv; [exact Hg|constructor|exact Hs]|].
    intros r Hr. apply (same_map _ _ (fun _ => True)); [now apply same_refl|]. intros v _. split; [reflexivity|]. cbn [snd]. apply set_world_quiet; [exact Hr|]. apply set_name_quiet; [apply Hr|exact Logic.I].
Qed.
Lemma exec_stmt_same : forall q s, quiet_state s -> quiet_stmt q -> same ends (exec_stmt py load invoke p q s) (exec_stmt py' load invoke' p q s).
Proof.
  intros q s Hs Q. destruct q as [g t|g t|e|e| |x|n|n|x a n m|x e m|d|e|e| | | |d|ns|k v|ns|e| | |t a|t|t| | |l]; try apply same_raise; try (now apply collect_same); cbn [exec_stmt quiet_stmt] in *; try (now apply same_ok).
  - (* text *) apply guarded_same; [exact Hs|exact Q|now apply same_ok].
  - (* gettext *) destruct Q as [Qg Qt]. apply guarded_same; [exact Hs|exact Qg|now apply translate_same].
  - (* yield *) apply (same_map _ _ (fun vs : value * state => quiet_state (snd vs))); [now apply show_value_same|]. intros vs H. now split.
  - (* escape *) apply (same_bind _ _ (fun _ => True)); [apply instance_same|]. intros _ _.
    apply (same_map _ _ (fun vs : value * state => quiet_state (snd vs))); [now apply show_value_same|]. intros vs H. now split.
  - (* decorate *) apply (same_refl _ _ (rbind (lookup py (s_world s) p (L "__kj__")) (fun g : bval => match g with GKajiki _ _ => Ok ([], M_Exec.CNone, s) | _ => Raise "AttributeError" end))).
    intros x E. destruct (lookup py (s_world s) p (L "__kj__")) as [g|]; [|discriminate]. cbn [rbind] in E. destruct g; try discriminate. assert (x = ([], M_Exec.CNone, s)) as -> by congruence. exact Hs.
  - (* push *) apply (same_map _ _ (fun _ => True)); [apply instance_same|]. intros i _. split; [reflexivity|]. cbn [snd]. split; [apply Hs|]. intros j. cbn [with_with s_with]. unfold upd. destruct (Nat.eqb j i); [|apply Hs].
    constructor; [|apply Hs]. apply Forall_map. apply Forall_forall. intros k _. destruct (local_value (s_world s) p k) as [v|] eqn:El; [|exact Logic.I]. apply (local_quiet _ _ _ _ (proj1 Hs) El).
  - (* assign *) destruct (M_Exec.targets k) as [|x [|x2 xs]]; try apply same_raise. destruct (M_Exec.is_name x); [|apply same_raise].
    apply (same_map _ _ quiet_val); [apply eval_same; [apply Hs|exact Q]|]. intros g Hg. split; [reflexivity|]. cbn [snd]. apply set_world_quiet; [exact Hs|]. apply set_name_quiet; [apply Hs|exact Hg].
  - (* pop *) apply (same_bind _ _ (fun _ => True)); [apply instance_same|]. intros i _. apply same_refl. intros r E. pose proof (proj2 Hs i) as Hw. destruct (s_with s i) as [|saved rest]; [discriminate|].
    apply Forall_cons_iff in Hw. destruct Hw as [Hsv Hr]. destruct (negb _); [discriminate|]. destruct (Nat.eqb _ _); [|discriminate].
    match type of E with Ok ?x = _ => assert (r = x) as -> by congruence end. cbn [snd]. split; [|intros j; cbn [with_with s_with]; unfold upd; destruct (Nat.eqb j i); [exact Hr|apply Hs]].
    cbn [with_with s_world set_world]. apply set_names_quiet; [apply Hs|]. clear - Hsv. generalize (flat_map M_Exec.targets ns). induction Hsv as [|v l Hv Hl IH]; intros [|x xs]; cbn [combine]; try constructor; [exact Hv|apply IH].
  - (* push switch *) apply (same_bind _ _ (fun _ => True)); [apply instance_same|]. intros i _. apply (same_map _ _ (fun _ => True)); [apply evalue_same; [apply Hs|exact Q]|]. intros v _. split; [reflexivity|exact Hs].
  - (* pop switch *) apply (same_bind _ _ (fun _ => True)); [apply instance_same|]. intros i _. destruct (s_switch s i) as [|x rest]; [apply same_raise|]. apply same_ok. exact Hs.
  - (* import *) apply (same_map _ _ (fun wr : world bcode * nat => quiet_world (fst wr))); [apply (same_refl _ _ (import_template py load (s_world s) p t a)); intros wr; apply import_template_quiet, Hs|].
    intros wr H. split; [reflexivity|]. now apply new_stacks_quiet.
  - (* include *) apply (same_bind _ _ (fun wr : world bcode * nat => quiet_world (fst wr))); [apply (same_refl _ _ (import_template py load (s_world s) p t None)); intros wr; apply import_template_quiet, Hs|].
    intros wr H. now apply main_same.
  - (* extend *) apply (same_bind _ _ (fun wr : world bcode * nat => quiet_world (fst wr))); [apply (same_refl _ _ (extend_template py load (s_world s) p t)); intros wr; apply extend_template_quiet, Hs|].
    intros wr H. now apply main_same.
Qed.
Notation done := (fun os : list value * state => quiet_state (snd os)).
Lemma loop_same : forall body body' l s, (forall s, quiet_state s -> same done (body s) (body' s)) -> Forall (Forall (fun kv : str * bval => quiet_val (snd kv))) l -> quiet_state s ->
  same done (loop p body l s) (loop p body' l s).
Proof.
  intros body body' l s Hb Hl. revert s. induction Hl as [|r l Hr Hl IH]; intros s Hs; cbn [loop]; [now apply same_ok|].
  apply (same_bind _ _ done); [apply Hb; apply set_world_quiet; [exact Hs|]; apply set_names_quiet; [apply Hs|exact Hr]|]. intros os Ho.
  apply (same_map _ _ done); [now apply IH|]. intros os' H. now split.
Qed.
Lemma exec_block_same : forall h code body body' c s, quiet_state s -> quiet_stmt h -> Forall quiet code -> (forall s, quiet_state s -> same done (body s) (body' s)) ->
  same ends (exec_block py p h code body c s) (exec_block py' p h code body' c s).
Proof.
  intros h code body body' c s Hs Q Qc Hb.
  assert (Run : forall c, same ends (rmap (fun os => (fst os, c, snd os)) (body s)) (rmap (fun os => (fst os, c, snd os)) (body' s))).
  { intros c'. apply (same_map _ _ done); [now apply Hb|]. intros os H. now split. }
  assert (Def : forall x d, same ends (Ok ([], M_Exec.CNone, set_world s (set_name (s_world s) p x (GObj _ _ (RC d code (p_inst p) (p_scopes p)))))) (Ok ([], M_Exec.CNone, set_world s (set_name (s_world s) p x (GObj _ _ (RC d code (p_inst p) (p_scopes p))))))).
  { intros x d. apply same_ok. cbn [snd]. apply set_world_quiet; [exact Hs|]. apply set_name_quiet; [apply Hs|exact Qc]. }
  assert (Write : forall x chunks, same ends (rmap (fun os => (fst os, M_Exec.CFor, snd os)) (loop p body (map (fun t => [(x, val (VStr t))]) chunks) s))
                                             (rmap (fun os => (fst os, M_Exec.CFor, snd os)) (loop p body' (map (fun t => [(x, val (VStr t))]) chunks) s))).
  { intros x chunks. apply (same_map _ _ done); [|intros os H; now split]. apply loop_same; [exact Hb| |exact Hs]. apply Forall_map. apply Forall_forall. intros t _. constructor; [exact Logic.I|constructor]. }
  destruct h as [g t|g t|e|e| |x|n|n|x a n m|x e m|d|e|e| | | |d|ns|k v|ns|e| | |t a|t|t| | |l]; try apply same_raise; cbn [exec_block quiet_stmt] in *.
  - (* def *) apply Def.
  - (* attr *) apply (same_bind _ _ (fun _ => True)); [apply instance_same|]. intros _ _. apply (same_bind _ _ (fun _ => True)); [now apply (same_refl _ _ (lookup py (s_world s) p n))|]. intros g _.
    apply (same_bind _ _ (fun _ => True)); [now apply same_refl|]. intros chunks _. apply Write.
  - (* attrs *) apply (same_bind _ _ (fun _ => True)); [apply instance_same|]. intros _ _. apply (same_bind _ _ (fun _ => True)); [apply attributes_same; [apply Hs|exact Q]|]. intros l _.
    apply (same_bind _ _ (fun _ => True)); [now apply same_refl|]. intros chunks _. apply Write.
  - (* for *) apply (same_bind _ _ (Forall (Forall (fun kv : str * bval => quiet_val (snd kv))))); [apply rounds_same; [apply Hs|exact Q]|]. intros l Hl.
    apply (same_map _ _ done); [now apply loop_same|]. intros os H. now split.
  - (* if *) apply (same_bind _ _ (fun _ => True)); [apply condition_same; [apply Hs|exact Q]|]. intros [|] _; [apply Run|now apply same_ok].
  - (* case *) destruct c as [|[|]|]; try apply same_raise; [now apply same_ok|].
    apply (same_bind _ _ (fun _ => True)); [apply instance_same|]. intros i _. apply (same_bind _ _ (fun _ => True)); [apply evalue_same; [apply Hs|exact Q]|]. intros v _.
    destruct (s_switch s i) as [|x rest]; [apply same_raise|]. change (veq py' v x) with (veq py v x). destruct (veq py v x); [apply Run|now apply same_ok].
  - (* else *) destruct c as [|[|]|]; try apply same_raise; [now apply same_ok|apply Run|apply Run].
  - apply Def.
Qed.
Lemma exec_body_eq : forall py0 inv l c s, (fix go (l : list blk) (c : M_Exec.chain) (s : state) : result (list value * M_Exec.chain * state) :=
            match l with
            | [] => Ok ([], c, s)
            | b :: l' =>
                rbind (exec py0 load inv p b c s) (fun r =>
                rmap (fun r' => (fst (fst r) ++ fst (fst r'), snd (fst r'), snd r'))
                     (go l' (snd (fst r)) (snd r)))
            end) l c s = execs py0 load inv p l c s.
Proof. intros py0 inv. induction l as [|b l IH]; intros c s; [reflexivity|]. cbn [execs]. destruct (exec py0 load inv p b c s) as [r|]; [|reflexivity]. cbn [rbind]. now rewrite IH. Qed.
Lemma execs_of : forall l, Forall (fun b => quiet b -> forall c s, quiet_state s -> same ends (exec py load invoke p b c s) (exec py' load invoke' p b c s)) l ->
  Forall quiet l -> forall c s, quiet_state s -> same ends (execs py load invoke p l c s) (execs py' load invoke' p l c s).
Proof.
  intros l F. induction F as [|b l Hb F IH]; intros Q c s Hs; cbn [execs]; [now apply same_ok|]. apply Forall_cons_iff in Q. destruct Q as [Qb Q].
  apply (same_bind _ _ ends); [now apply Hb|]. intros r Hr. apply (same_map _ _ ends); [now apply IH|]. intros r' H. now split.
Qed.
Lemma exec_same : forall b, quiet b -> forall c s, quiet_state s -> same ends (exec py load invoke p b c s) (exec py' load invoke' p b c s).
Proof.
  induction b as [t g|q|h body F|lines] using blk_ind'; intros Q c s Hs.
  - cbn [exec]. apply guarded_same; [exact Hs|exact Q|now apply same_ok].
  - cbn [exec]. now apply exec_stmt_same.
  - apply quiet_bl in Q. destruct Q as [Qh Qb]. cbn [exec]. apply exec_block_same; [exact Hs|exact Qh|exact Qb|]. intros s' Hs'. rewrite !exec_body_eq.
    apply (same_map _ _ ends); [now apply execs_of|]. intros r H. now split.
  - cbn [exec]. apply (same_map _ _ (fun ow : list value * world bcode => quiet_world (snd ow))); [apply run_block_same; [apply Hs|exact Q]|]. intros ow H. split; [reflexivity|]. now apply set_world_quiet.
Qed.
Lemma execs_same : forall l, Forall quiet l -> forall c s, quiet_state s -> same ends (execs py load invoke p l c s) (execs py' load invoke' p l c s).
Proof. intros l. apply execs_of. apply Forall_forall. intros b _. apply exec_same. Qed.
End Exec.

(** ** Whole templates *)
Section Run.
Variable load : bool -> str -> result bcls.
Hypothesis Hload : forall fragment name c, load fragment name = Ok c -> quiet_class c.
Lemma invoke_same : forall depth, invokes_same (invoke py load depth) (invoke py' load depth).
Proof.
  induction depth as [|depth IH]; intros [[[d body] i] ss] params s Hc Hp Hs; cbn [invoke]; [apply same_raise|].
  change (all_names py' body) with (all_names py body). apply (same_map _ _ (fun r : list value * M_Exec.chain * state => quiet_state (snd r))).
  - apply execs_same; [exact Hload|exact IH|exact Hc|]. apply set_world_quiet; [exact Hs|]. split; [apply Hs|]. cbn [w_frames]. apply Forall_app. split; [apply Hs|]. constructor; [exact Hp|constructor].
  - intros r H. now split.
Qed.
Lemma run_template_same : forall depth c context, quiet_class c -> quiet_dict context -> run_template py' load depth c context = run_template py load depth c context.
Proof.
  intros depth c context Hc Hx. unfold run_template. destruct (new _ _ [] c (Given _ _ context)) as [h i] eqn:En.
  assert (H : quiet_heap h) by (refine (new_quiet _ _ _ _ _ _ Hc _ En); [constructor|exact Hx]).
  change (main_of py' h i) with (main_of py h i). destruct (main_of py h i) as [m|] eqn:Em; [|reflexivity]. cbn [rbind].
  destruct (call_function_same (invoke py load depth) (invoke py' load depth) (invoke_same depth) m [] (State (World h []) (fun _ => []) (fun _ => []))) as [E _].
  - exact (main_quiet h i m H Em).
  - constructor.
  - split; [split; [exact H|constructor]|]. intros j. constructor.
  - now rewrite E.
Qed.
End Run.
Lemma objects_quiet : forall l : list (str * value), quiet_dict (objects l).
Proof. intros l. apply Forall_map. apply Forall_forall. intros kv _. left. exact Logic.I. Qed.
Definition file_ok (x : file) : Prop := quiet_file py x /\ known (messages (fst (fst x))).
Lemma class_functions_quiet : forall l fs, Forall quiet l -> class_functions l = Some fs -> Forall (fun kf => Forall quiet (snd (snd kf))) fs.
Proof.
  intros l. remember (length l) as n eqn:En. assert (Hn : length l <= n) by lia. clear En. revert l Hn. induction n as [|n IH]; intros l Hn fs Q E.
  - destruct l; [|cbn in Hn; lia]. cbn [class_functions] in E. assert (fs = []) as -> by congruence. constructor.
  - destruct l as [|b l]; cbn [class_functions] in E; [assert (fs = []) as -> by congruence; constructor|].
    destruct b as [|q| |]; try discriminate. destruct q; try discriminate. destruct l as [|b l]; [discriminate|]. destruct b as [| |h body|]; try discriminate. destruct h; try discriminate.
    destruct (class_functions l) as [fs'|] eqn:Ec; [|discriminate]. cbn [option_map] in E. apply Forall_cons_iff in Q. destruct Q as [_ Q]. apply Forall_cons_iff in Q. destruct Q as [Qb Q]. apply quiet_bl in Qb.
    match type of E with Some ?x = _ => assert (fs = x) as -> by congruence end. constructor; [apply Qb|]. apply (IH l); [cbn in Hn; lia|exact Q|exact Ec].
Qed.
Lemma sort_forall : forall A (P : str * A -> Prop) l, Forall P l -> Forall P (sort_attrs l).
Proof.
  intros A P l H. assert (I1 : forall x l, P x -> Forall P l -> Forall P (insert_attr x l)).
  { intros x l0 Hx Hl. induction Hl as [|y l0 Hy Hl IH]; cbn [insert_attr]; [now constructor|]. destruct (sleb _ _); repeat (constructor; auto). }
  induction H as [|x l Hx H IH]; cbn [sort_attrs]; [constructor|]. now apply I1.
Qed.
Lemma class_of_quiet : forall x c, file_ok x -> class_of x = Ok c -> quiet_class c.
Proof.
  intros [[t given] module] c [Q K] E. unfold class_of in E. destruct (M_Exec.parses _); [|discriminate]. unfold template_class in E.
  destruct (class_functions (programs (defs t))) as [fs|] eqn:Ec; [|discriminate]. cbn [option_map] in E. assert (c = from_ir _ _ (class_methods fs) (objects given) (objects module)) as -> by congruence.
  assert (F : Forall (fun kf => Forall quiet (snd (snd kf))) fs) by (apply (class_functions_quiet _ _ (programs_quiet _ Q K) Ec)).
  split; cbn [from_ir M_Template.methods base_globals]; [|apply update_forall; apply objects_quiet]. unfold class_methods. apply sort_forall.
  assert (G : forall d, Forall (fun kf : str * (str * bcode) => Forall quiet (snd (snd kf))) d -> Forall (fun kf : str * (str * bcode) => Forall quiet (snd (snd kf))) (fold_left (fun d kf => set (fst kf) (snd kf) d) fs d)).
  { clear Ec E. induction F as [|kf fs Hk F IH]; intros d Hd; cbn [fold_left]; [exact Hd|]. apply IH. apply set_forall; [exact Hk|exact Hd]. }
  apply G. constructor.
Qed.
Theorem run_file_same : forall files depth x context,
  (forall fragment name y, files fragment name = Ok y -> file_ok y) -> file_ok x -> run_file py' files depth x context = run_file py files depth x context.
Proof.
  intros files depth x context Hf Hx. unfold run_file. destruct (class_of x) as [c|] eqn:Ec; [|reflexivity]. cbn [rbind]. apply run_template_same.
  - intros fragment name c' E. destruct (files fragment name) as [y|] eqn:Ey; [|discriminate]. cbn [rbind] in E. exact (class_of_quiet y c' (Hf _ _ _ Ey) E).
  - exact (class_of_quiet x c Hx Ec).
  - apply objects_quiet.
Qed.
End Same.
