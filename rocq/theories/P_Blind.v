(** * Proofs: values do not change the structure of a page *)

From Coq Require Import Ascii String List Arith NArith ZArith Bool Lia Permutation Sorted.
From Verif Require Import PyStr PyStrLemmas M_Values S_Values P_Values M_IR S_IR P_IR M_Exec S_Exec P_Exec P_Exec2 P_Exec3 P_Exec4 P_Exec5
  M_Text M_XText S_Text S_XText P_XText P_XText2 M_Entities S_Entities P_Entities M_Dom M_XCompile S_XDoc P_XDoc P_XDoc2 P_XStrip S_Markup P_Markup S_Nested P_Nested P_Raw P_Nested2 P_Modes S_Blind.
Import ListNotations.
Open Scope list_scope.

(** ** Attributes *)
Lemma alike_plain : forall html v v', alike html v v' -> S_Values.plain v -> S_Values.plain v' /\ as_bool v = as_bool v'.
Proof. intros html v v' [[-> _]|(P & P' & E)] Pv; now split. Qed.
Lemma attr1_alike : forall html m k v v', legal_name k -> v = VNone \/ S_Values.plain v -> alike html v v' ->
  exists a b, written_attrs a (concat (render_attr1 m (k, v))) /\ written_attrs b (concat (render_attr1 m (k, v'))) /\ map fst a = map fst b.
Proof.
  intros html m k v v' Lk Hv Al.
  assert (Hv' : v' = VNone \/ S_Values.plain v').
  { destruct Hv as [->|P]; [|right; exact (proj1 (alike_plain html v v' Al P))]. destruct Al as [[<- _]|([] & _)]. now left. }
  assert (Eb : as_bool v = as_bool v') by (destruct Hv as [->|P]; [destruct Al as [[<- _]|([] & _)]; reflexivity|exact (proj2 (alike_plain html v v' Al P))]).
  assert (En : v = VNone <-> v' = VNone) by (destruct Al as [[-> _]|(P & P' & _)]; [tauto|]; split; intros ->; [destruct P|destruct P']).
  assert (Ev : value_of k v = VNone <-> value_of k v' = VNone) by (unfold value_of; rewrite Eb; destruct (smem k html_empty_attrs); [|exact En]; destruct (as_bool v') as [[|]|]; tauto).
  destruct (attr1_one m k v Lk Hv) as [[E1 ->]|(N1 & o1 & W1 & _)]; destruct (attr1_one m k v' Lk Hv') as [[E2 ->]|(N2 & o2 & W2 & _)]; try tauto.
  - exists [], []. split; [constructor|split; constructor].
  - exists [(k, o1)], [(k, o2)]. split; [exact W1|]. split; [exact W2|reflexivity].
Qed.
Definition attr_alike (html : bool) (kv kv' : str * M_Values.value) : Prop :=
  fst kv = fst kv' /\ legal_name (fst kv) /\ (snd kv = VNone \/ S_Values.plain (snd kv)) /\ alike html (snd kv) (snd kv').
Lemma attrs_alike : forall html m l l', Forall2 (attr_alike html) l l' ->
  exists a b, written_attrs a (concat (flat_map (render_attr1 m) l)) /\ written_attrs b (concat (flat_map (render_attr1 m) l')) /\ map fst a = map fst b.
Proof.
  intros html m l l' F. induction F as [|[k v] [k' v'] l l' (E & Lk & Hv & Al) F (a & b & Wa & Wb & S)]; [exists [], []; split; [constructor|split; constructor]|]. cbn [fst snd] in *. subst k'.
  destruct (attr1_alike html m k v v' Lk Hv Al) as (a1 & b1 & Wa1 & Wb1 & S1). exists (a1 ++ a), (b1 ++ b). cbn [flat_map]. rewrite !concat_app, !map_app.
  split; [now apply written_attrs_app|]. split; [now apply written_attrs_app|]. now rewrite S, S1.
Qed.
Lemma sort_alike : forall html l l', Forall2 (attr_alike html) l l' -> Forall2 (attr_alike html) (sort_attrs l) (sort_attrs l').
Proof.
  intros html l l' F. induction F as [|x x' l l' Hx F IH]; [constructor|]. cbn [sort_attrs]. clear F. pose proof Hx as [Ex _]. induction IH as [|y y' t t' Hy F IH]; cbn [insert_attr]; [constructor; [exact Hx|constructor]|].
  pose proof Hy as [Ey _]. rewrite <- Ex, <- Ey. destruct (sleb (fst x) (fst y)).
  - constructor; [exact Hx|]. constructor; assumption.
  - constructor; [exact Hy|exact IH].
Qed.
Lemma dup_alike : forall html l l', Forall2 (attr_alike html) l l' -> dup_keys l = dup_keys l'.
Proof.
  intros html l l' F. assert (K : map fst l = map fst l') by (clear -F; induction F as [|x x' l l' (E & _) F IH]; [reflexivity|]; cbn [map]; now rewrite E, IH).
  clear F. revert l' K. induction l as [|[k v] l IH]; intros [|[k' v'] l'] K; try discriminate; [reflexivity|]. cbn [map fst] in K. injection K as <- K. cbn [dup_keys]. now rewrite (IH l' K), K.
Qed.

Section Blind.
Variable py : python.
Variable html : bool.
Variable mode : str.
Variables free texts deciding : str -> Prop.
Hypothesis Hmode : prefixb (L "html") mode = html.
Hypothesis G : blind py html free texts deciding.
Notation alike := (alike html).
Notation alike_env := (alike_env html free texts).
Notation shows_text := (shows_text py html free texts).

Definition pair (s t : str) : Prop := exists i j, written html i s /\ written html j t /\ structure_of i = structure_of j.
Lemma pair_nil : pair [] [].
Proof. exists [], []. split; [constructor|split; constructor]. Qed.
Lemma structure_app : forall i j, structure_of (i ++ j) = structure_of i ++ structure_of j.
Proof. intros i j. apply flat_map_app. Qed.
Lemma structure_chars : forall v, structure_of (map I_char v) = [].
Proof. induction v; [reflexivity|assumption]. Qed.
Lemma pair_app : forall a b c d, pair a b -> pair c d -> pair (a ++ c) (b ++ d).
Proof.
  intros a b c d (i & j & Wi & Wj & S) (i' & j' & Wi' & Wj' & S'). exists (i ++ i'), (j ++ j'). split; [now apply written_app|]. split; [now apply written_app|]. now rewrite !structure_app, S, S'.
Qed.
Lemma pair_text : forall v t, written_text v t -> pair t t.
Proof. intros v t W. exists (map I_char v), (map I_char v). split; [now apply written_of_text|]. split; [now apply written_of_text|reflexivity]. Qed.
Lemma plain_written : forall v, S_Values.plain v -> written html (map I_char (to_str v)) (render [escape v]).
Proof. intros v P. assert (escape v = VStr (escape_str (to_str v))) as -> by (destruct v; try destruct P; reflexivity). rewrite render_str. apply written_of_text, written_escape. Qed.
Lemma pair_alike : forall v v', alike v v' -> pair (render [escape v]) (render [escape v']).
Proof.
  intros v v' [[<- [is W]]|(P & P' & _)]; [now exists is, is|]. exists (map I_char (to_str v)), (map I_char (to_str v')). split; [now apply plain_written|]. split; [now apply plain_written|]. now rewrite !structure_chars.
Qed.

(** Both fail in the same way, or give such variables and texts related by [P]. *)
Definition both (P : str -> str -> Prop) (r r' : result (list M_Values.value * env)) : Prop :=
  match r, r' with
  | Ok (o, e), Ok (o', e') => alike_env e e' /\ P (render o) (render o')
  | Raise x, Raise y => x = y
  | _, _ => False
  end.
Lemma both_then : forall (P Q R : str -> str -> Prop) r r' f f', both P r r' -> (forall e e', alike_env e e' -> both Q (f e) (f' e')) ->
  (forall a b c d, P a b -> Q c d -> R (a ++ c) (b ++ d)) -> both R (then_ r f) (then_ r' f').
Proof.
  intros P Q R r r' f f' H F J. unfold both, then_ in *. destruct r as [[o e]|x]; destruct r' as [[o' e']|y]; try destruct H; [|exact eq_refl].
  rename H into Se. rename H0 into HP. cbn [rbind fst snd]. specialize (F e e' Se). destruct (f e) as [[o2 e2]|]; destruct (f' e') as [[o2' e2']|]; try destruct F; cbn [rmap fst snd]; [|reflexivity].
  split; [assumption|]. rewrite !render_app. now apply J.
Qed.
Definition goods (ss : list stm) : Prop := forall e e', alike_env e e' -> both pair (means py ss e) (means py ss e').
Lemma goods_nil : goods [].
Proof. intros e e' Se. split; [exact Se|exact pair_nil]. Qed.
Lemma goods_app : forall a b, goods a -> goods b -> goods (a ++ b).
Proof. intros a b Ga Gb e e' Se. rewrite !means_app. apply (both_then pair pair pair); [now apply Ga|exact Gb|exact pair_app]. Qed.
Lemma goods_one : forall s, (forall e e', alike_env e e' -> both pair (meaning py s e) (meaning py s e')) -> goods [s].
Proof. intros s H e e' Se. rewrite !means_single. now apply H. Qed.
Lemma steady_under : forall g, steady py g -> (forall e r, under py g e r = r) \/ (forall e r, under py g e r = Ok ([], e)).
Proof. exact (steady_cases py). Qed.
Lemma good_text : forall t, pair t t -> goods [SText t None].
Proof. intros t W. apply goods_one. intros e e' Se. split; [exact Se|]. now rewrite render_str. Qed.
Lemma good_trans : forall t v, written_text v t -> goods [STrans t None].
Proof.
  intros t v W. apply goods_one. intros e e' Se. split; [exact Se|]. destruct (strip t); [rewrite render_str; now apply (pair_text v)|]. destruct (bl_trans py html free texts deciding G t v W) as [v' W']. now apply (pair_text v').
Qed.
Lemma good_expr : forall x, goods [SExpr x false].
Proof.
  intros x. apply goods_one. intros e e' Se. cbn [meaning]. pose proof (bl_expr py html free texts deciding G e e' x Se) as H. unfold alike_results in H.
  destruct (ev py e x) as [v|]; destruct (ev py e' x) as [v'|]; try destruct H; cbn [rmap]; try reflexivity; (split; [exact Se|]); apply pair_alike; [now left|now right].
Qed.
Lemma good_if : forall c b els, deciding c -> goods b -> goods els -> goods [SIf c b els].
Proof.
  intros c b els Dc Gb Ge. apply goods_one. intros e e' Se. cbn [meaning]. destruct (bl_decide py html free texts deciding G e e' c Dc Se) as [_ E]. rewrite <- E. destruct (ev_bool py e c) as [t|]; cbn [rbind]; [|reflexivity]. destruct t; [exact (Gb e e' Se)|exact (Ge e e' Se)].
Qed.
Lemma good_for : forall d b els, deciding d -> goods b -> goods els -> goods [SFor d b els].
Proof.
  intros d b els Dd Gb Ge. apply goods_one. intros e e' Se. cbn [meaning]. pose proof (bl_for py html free texts deciding G e e' d Dd Se) as Fr. unfold alike_results in Fr.
  destruct (ev_for py e d) as [rounds|x]; destruct (ev_for py e' d) as [rounds'|x']; [|destruct Fr|destruct Fr|cbn [rbind]; exact Fr]. cbn [rbind].
  change (both pair (then_ (for_each (means py b) rounds e) (means py els)) (then_ (for_each (means py b) rounds' e') (means py els))).
  apply (both_then pair pair pair); [|exact Ge|exact pair_app]. revert e e' Se. induction Fr as [|r r' rounds rounds' Sr Fr IH]; intros e e' Se; cbn [for_each].
  - split; [exact Se|exact pair_nil].
  - apply (both_then pair pair pair); [|exact IH|exact pair_app]. apply Gb. now apply Forall2_app.
Qed.
Lemma alike_lookup : forall e e' k, alike_env e e' ->
  match lookup k e, lookup k e' with Some v, Some v' => alike v v' /\ (free k \/ v = v') /\ (texts k -> as_text v /\ as_text v') | None, None => True | _, _ => False end.
Proof.
  intros e e' k Se. induction Se as [|[j v] [j' v'] e e' (E & Al & Fr & Tx) Se IH]; cbn [lookup]; [exact Logic.I|]. cbn [fst snd] in *. subst j'. destruct (seqb_spec k j) as [->|]; [exact (conj Al (conj Fr Tx))|exact IH].
Qed.
Definition vars_ok (vars : list (str * str)) : Prop := Forall (fun kx => (free (fst kx) \/ deciding (snd kx)) /\ (texts (fst kx) -> shows_text (snd kx))) vars.
Lemma alike_assigns : forall vars e e', vars_ok vars -> alike_env e e' -> alike_results alike_env (assigns py vars e) (assigns py vars e').
Proof.
  induction vars as [|[k x] vars IH]; intros e e' V Se; cbn [assigns]; [exact Se|]. apply Forall_cons_iff in V. destruct V as [[Vx Tx] V]. cbn [fst snd] in Vx, Tx.
  pose proof (bl_expr py html free texts deciding G e e' x Se) as H. unfold alike_results in H. destruct (ev py e x) as [v|] eqn:E1; destruct (ev py e' x) as [v'|] eqn:E2; try contradiction; cbn [rbind]; [|exact H].
  apply (IH (set_var k v e) (set_var k v' e') V). constructor; [|exact Se]. split; [reflexivity|]. split; [exact H|]. cbn [fst snd]. split; [|intros Tk; destruct (Tx Tk e e' Se) as [T1 T2]; split; [now apply T1|now apply T2]]. destruct Vx as [Fk|Dx]; [now left|]. right. destruct (bl_decide py html free texts deciding G e e' x Dx Se) as [E _]. congruence.
Qed.
Lemma alike_restore : forall names old old' e e', alike_env old old' -> alike_env e e' -> alike_env (restore names old e) (restore names old' e').
Proof.
  intros names old old' e e' So. unfold restore. revert e e'. induction names as [|k names IH]; intros e e' Se; [exact Se|]. cbn [fold_left]. apply IH. constructor; [|exact Se]. split; [reflexivity|]. cbn [fst snd].
  pose proof (alike_lookup old old' k So) as H. destruct (lookup k old) as [v|]; destruct (lookup k old') as [v'|]; try contradiction; [exact H|]. split; [|split; [now right|intros _; split; split; vm_compute; intuition discriminate]]. left. split; [reflexivity|]. exists (map I_char (L "()")). change (render [escape unit_value]) with (escape_str (L "()")). apply written_of_text, written_escape.
Qed.
Lemma good_with : forall vars b, vars_ok vars -> goods b -> goods [SWith vars b].
Proof.
  intros vars b V Gb. apply goods_one. intros e e' Se. cbn [meaning]. pose proof (alike_assigns vars e e' V Se) as Ha. unfold alike_results in Ha.
  destruct (assigns py vars e) as [e1|]; destruct (assigns py vars e') as [e1'|]; try contradiction; cbn [rbind]; [|exact Ha].
  change (both pair (rmap (fun oe => (fst oe, restore (map fst vars) e (snd oe))) (means py b e1)) (rmap (fun oe => (fst oe, restore (map fst vars) e' (snd oe))) (means py b e1'))).
  specialize (Gb e1 e1' Ha). unfold both in *. destruct (means py b e1) as [[o e2]|]; destruct (means py b e1') as [[o' e2']|]; try contradiction; cbn [rmap fst snd]; [|exact Gb].
  destruct Gb as [S2 HP]. split; [now apply alike_restore|exact HP].
Qed.
Lemma good_switch : forall d cases els, deciding d -> Forall (fun cb => deciding (fst cb) /\ goods (snd cb)) cases -> goods els -> goods [SSwitch d cases els].
Proof.
  intros d cases els Dd Gc Ge. apply goods_one. intros e e' Se. cbn [meaning]. destruct (bl_decide py html free texts deciding G e e' d Dd Se) as [<- _]. destruct (ev py e d) as [w|]; cbn [rbind]; [|reflexivity].
  induction Gc as [|[c b] cases [Dc Gb] Gc IH]; [exact (Ge e e' Se)|]. cbn [fst snd] in *. destruct (bl_decide py html free texts deciding G e e' c Dc Se) as [<- _]. destruct (ev py e c) as [v|]; cbn [rbind]; [|reflexivity]. destruct (veq py v w); [exact (Gb e e' Se)|exact IH].
Qed.

(** ** Tags *)
Definition attr_text (s : stm) : Prop := match s with SText _ None | SExpr _ true => True | _ => False end.
Definition tag_attr (g : option str) (s : stm) : Prop :=
  (exists k v, s = SAttr k v g mode /\ legal_name k /\ Forall attr_text v) \/ exists x, s = SAttrs x g mode.
Definition wattrs (s t : str) : Prop := exists a b, written_attrs a s /\ written_attrs b t /\ map fst a = map fst b.
Lemma wattrs_nil : wattrs [] [].
Proof. exists [], []. split; [constructor|split; constructor]. Qed.
Lemma wattrs_app : forall a b c d, wattrs a b -> wattrs c d -> wattrs (a ++ c) (b ++ d).
Proof. intros a b c d (i & j & Wi & Wj & S) (i' & j' & Wi' & Wj' & S'). exists (i ++ i'), (j ++ j'). split; [now apply written_attrs_app|]. split; [now apply written_attrs_app|]. now rewrite !map_app, S, S'. Qed.
Lemma render_attrs_alike : forall l l' e e', alike_env e e' -> Forall2 (attr_alike html) l l' ->
  both wattrs (rmap (fun chunks => (map VStr chunks, e)) (render_attrs l mode)) (rmap (fun chunks => (map VStr chunks, e')) (render_attrs l' mode)).
Proof.
  intros l l' e e' Se F. unfold render_attrs. rewrite (dup_alike html l l' F). destruct (dup_keys l'); cbn [rmap]; [reflexivity|]. split; [exact Se|]. rewrite !render_strs. apply (attrs_alike html). now apply sort_alike.
Qed.
(** The parts of an attribute. *)
Definition raw_alike (v v' : M_Values.value) : Prop := v = v' \/ S_Values.plain v /\ S_Values.plain v'.
Lemma parts_mean : forall v e e', alike_env e e' -> Forall attr_text v ->
  alike_results (fun r r' => Forall2 raw_alike (fst r) (fst r')) (means py v e) (means py v e') /\
  (forall o e1, means py v e = Ok (o, e1) -> e1 = e).
Proof.
  intros v e e' Se F. induction F as [|s v Hs F [IH1 IH2]]; cbn [means]; [split; [constructor|congruence]|].
  assert (H : alike_results (fun r r' => Forall2 raw_alike (fst r) (fst r') /\ snd r = e /\ snd r' = e') (meaning py s e) (meaning py s e')).
  { destruct s as [|t [g|]|t g|x [|]|c b els|d b els|vars b|d cases els|a v0 g m|x g m]; try destruct Hs; cbn [meaning].
    - unfold under. cbn [truthy_guard alike_results]. split; [|now split]. constructor; [now left|constructor].
    - pose proof (bl_expr py html free texts deciding G e e' x Se) as H. unfold alike_results in *. destruct (ev py e x) as [w|]; destruct (ev py e' x) as [w'|]; try contradiction; cbn [rmap fst snd]; [|exact H].
      split; [|now split]. constructor; [|constructor]. destruct H as [[-> _]|(P & P' & _)]; [now left|right; now split]. }
  unfold then_, alike_results in *. destruct (meaning py s e) as [[o1 e1]|]; destruct (meaning py s e') as [[o1' e1']|]; try contradiction; cbn [rbind fst snd] in *; [|split; [exact H|discriminate]].
  destruct H as (F1 & -> & ->). destruct (means py v e) as [[o2 e2]|]; destruct (means py v e') as [[o2' e2']|]; try contradiction; cbn [rmap fst snd] in *; [|split; [exact IH1|discriminate]].
  split; [now apply Forall2_app|]. intros o e3 E. assert (e3 = e2) as -> by congruence. exact (IH2 o2 e2 eq_refl).
Qed.
Lemma collect_alike : forall o o', Forall2 raw_alike o o' ->
  alike_results (fun v v' => (v = VNone \/ S_Values.plain v) /\ alike v v') (collect o) (collect o').
Proof.
  intros o o' F. assert (P : alike_results (fun l l' => length l = length l') (collect_parts o) (collect_parts o')).
  { induction F as [|v v' o o' Hv F IH]; [reflexivity|]. destruct Hv as [<-|[P P']].
    - destruct v; cbn [collect_parts]; try exact IH; unfold alike_results in *;
        try (destruct (collect_parts o) as [l|]; destruct (collect_parts o') as [l'|]; try contradiction; cbn [rmap length]; [now rewrite IH|exact IH]).
      destruct (accumulate_str items) as [t|]; cbn [rbind]; [|reflexivity]. destruct (collect_parts o) as [l|]; destruct (collect_parts o') as [l'|]; try contradiction; cbn [rmap length]; [now rewrite IH|exact IH].
    - assert (E : forall v o, S_Values.plain v -> collect_parts (v :: o) = rmap (cons (to_str v)) (collect_parts o)) by (intros w; destruct w; intros ? Pw; try destruct Pw; reflexivity).
      rewrite !E by assumption. unfold alike_results in *. destruct (collect_parts o) as [l|]; destruct (collect_parts o') as [l'|]; try contradiction; cbn [rmap length]; [now rewrite IH|exact IH]. }
  unfold collect, alike_results in *. destruct (collect_parts o) as [l|]; destruct (collect_parts o') as [l'|]; try contradiction; cbn [rmap]; [|exact P].
  destruct l as [|s l]; destruct l' as [|s' l']; try discriminate.
  - split; [now left|]. left. split; [reflexivity|]. exists []. constructor.
  - split; [now right|]. right. repeat split.
Qed.
Definition tag_meaning := tag_meaning py.
Lemma tag_under : forall g s e, tag_attr g s -> meaning py s e = under py g e (tag_meaning s e).
Proof. intros g s e [(k & v & -> & _)|(x & ->)]; reflexivity. Qed.
Lemma tag_alike : forall g s e e', alike_env e e' -> tag_attr g s -> both wattrs (tag_meaning s e) (tag_meaning s e').
Proof.
  intros g s e e' Se [(k & v & -> & Lk & Fv)|(x & ->)]; unfold tag_meaning; cbn [P_Modes.tag_meaning].
  - assert (M : alike_results (fun r r' => Forall2 raw_alike (fst r) (fst r')) (match v with [] => Ok ([VStr []], e) | _ => means py v e end) (match v with [] => Ok ([VStr []], e') | _ => means py v e' end)).
    { destruct v as [|s v]; [constructor; [now left|constructor]|]. now apply parts_mean. }
    unfold alike_results in M. destruct (match v with [] => Ok ([VStr []], e) | _ => means py v e end) as [[o e1]|]; destruct (match v with [] => Ok ([VStr []], e') | _ => means py v e' end) as [[o' e1']|]; try contradiction; cbn [rbind fst] in *; [|exact M].
    pose proof (collect_alike o o' M) as C. unfold alike_results in C. destruct (collect o) as [y|]; destruct (collect o') as [y'|]; try contradiction; cbn [rbind]; [|exact C].
    apply render_attrs_alike; [exact Se|]. destruct C as [C1 C2]. constructor; [|constructor]. split; [reflexivity|]. split; [exact Lk|]. now split.
  - pose proof (bl_attrs py html free texts deciding G e e' x Se) as H. unfold alike_results in H. destruct (ev_attrs py e x) as [l|]; destruct (ev_attrs py e' x) as [l'|]; try contradiction; cbn [rbind]; [|exact H]. now apply render_attrs_alike.
Qed.
Lemma attrs_shown : forall g A, (forall e r, under py g e r = r) -> Forall (tag_attr g) A -> forall e e', alike_env e e' -> both wattrs (means py A e) (means py A e').
Proof.
  intros g A Sh F. induction F as [|s A Hs F IH]; intros e e' Se; cbn [means]; [split; [exact Se|exact wattrs_nil]|].
  apply (both_then wattrs wattrs wattrs); [|exact IH|exact wattrs_app]. rewrite !(tag_under g s _ Hs), !Sh. now apply (tag_alike g).
Qed.
Lemma attrs_hid : forall g A, (forall e r, under py g e r = Ok ([], e)) -> Forall (tag_attr g) A -> forall e, means py A e = Ok ([], e).
Proof.
  intros g A Hd F. induction F as [|s A Hs F IH]; intros e; cbn [means]; [reflexivity|]. rewrite (tag_under g s _ Hs), Hd. unfold then_. cbn [rbind fst snd]. now rewrite IH.
Qed.
Definition is_text (t s s' : str) : Prop := s = t /\ s' = t.
Lemma text_shown : forall g t e e', (forall e r, under py g e r = r) -> alike_env e e' -> both (is_text t) (meaning py (SText t g) e) (meaning py (SText t g) e').
Proof. intros g t e e' Sh Se. cbn [meaning]. rewrite !Sh. split; [exact Se|]. rewrite render_str. now split. Qed.
Lemma text_hid : forall g t e e', (forall e r, under py g e r = Ok ([], e)) -> alike_env e e' -> both pair (meaning py (SText t g) e) (meaning py (SText t g) e').
Proof. intros g t e e' Hd Se. cbn [meaning]. rewrite !Hd. split; [exact Se|exact pair_nil]. Qed.
Lemma element_shown : forall (Q : str -> str -> Prop) g op A c md fin, (forall e r, under py g e r = r) -> Forall (tag_attr g) A ->
  (forall e e', alike_env e e' -> both Q (means py c e) (means py c e')) ->
  (forall s s' b b', wattrs s s' -> Q b b' -> pair (op ++ s ++ md ++ b ++ fin) (op ++ s' ++ md ++ b' ++ fin)) ->
  goods (SText op g :: A ++ SText md g :: c ++ [SText fin g]).
Proof.
  intros Q g op A c md fin Sh FA Hc J e e' Se. cbn [means].
  apply (both_then (is_text op) (fun t t' => exists s s' b b', t = s ++ md ++ b ++ fin /\ t' = s' ++ md ++ b' ++ fin /\ wattrs s s' /\ Q b b') pair).
  - now apply text_shown.
  - clear e e' Se. intros e e' Se. rewrite !means_app. apply (both_then wattrs (fun t t' => exists b b', t = md ++ b ++ fin /\ t' = md ++ b' ++ fin /\ Q b b')); [now apply (attrs_shown g)| |].
    + clear e e' Se. intros e e' Se. cbn [means]. apply (both_then (is_text md) (fun t t' => exists b b', t = b ++ fin /\ t' = b' ++ fin /\ Q b b')).
      * now apply text_shown.
      * clear e e' Se. intros e e' Se. rewrite !means_app. apply (both_then Q (is_text fin)); [now apply Hc| |].
        -- clear e e' Se. intros e e' Se. rewrite !means_single. now apply text_shown.
        -- intros b b' f f' Hp [-> ->]. now exists b, b'.
      * intros s s' t t' [-> ->] (b & b' & -> & -> & Hp). now exists b, b'.
    + intros s s' t t' Hs (b & b' & -> & -> & Hp). now exists s, s', b, b'.
  - intros s s' t t' [-> ->] (a & a' & b & b' & -> & -> & Ha & Hp). now apply J.
Qed.
Lemma element_good : forall g op A c md fin, steady py g -> Forall (tag_attr g) A -> goods c ->
  (forall s s' b b', wattrs s s' -> pair b b' -> pair (op ++ s ++ md ++ b ++ fin) (op ++ s' ++ md ++ b' ++ fin)) ->
  goods (SText op g :: A ++ SText md g :: c ++ [SText fin g]).
Proof.
  intros g op A c md fin St FA Hc J. destruct (steady_under g St) as [Sh|Hd]; [now apply (element_shown pair)|]. intros e e' Se. cbn [means].
  apply (both_then pair pair pair); [now apply text_hid| |exact pair_app]. clear e e' Se. intros e e' Se. rewrite !means_app. apply (both_then pair pair pair); [| |exact pair_app].
  - rewrite !(attrs_hid g A Hd FA). split; [exact Se|exact pair_nil].
  - clear e e' Se. intros e e' Se. cbn [means]. apply (both_then pair pair pair); [now apply text_hid| |exact pair_app]. clear e e' Se. intros e e' Se. rewrite !means_app. apply (both_then pair pair pair); [now apply Hc| |exact pair_app].
    intros e0 e0' Se0. rewrite !means_single. now apply text_hid.
Qed.
Lemma empty_good : forall g op A fin, steady py g -> Forall (tag_attr g) A ->
  (forall s s', wattrs s s' -> pair (op ++ s ++ fin) (op ++ s' ++ fin)) ->
  goods (SText op g :: A ++ [SText fin g]).
Proof.
  intros g op A fin St FA J e e' Se. cbn [means]. destruct (steady_under g St) as [Sh|Hd].
  - apply (both_then (is_text op) (fun t t' => exists s s', t = s ++ fin /\ t' = s' ++ fin /\ wattrs s s') pair).
    + now apply text_shown.
    + clear e e' Se. intros e e' Se. rewrite !means_app. apply (both_then wattrs (is_text fin)); [now apply (attrs_shown g)| |].
      * clear e e' Se. intros e e' Se. rewrite !means_single. now apply text_shown.
      * intros s s' t t' Hs [-> ->]. now exists s, s'.
    + intros s s' t t' [-> ->] (a & a' & -> & -> & Ha). now apply J.
  - apply (both_then pair pair pair); [now apply text_hid| |exact pair_app]. clear e e' Se. intros e e' Se. rewrite !means_app. apply (both_then pair pair pair); [| |exact pair_app].
    + rewrite !(attrs_hid g A Hd FA). split; [exact Se|exact pair_nil].
    + intros e0 e0' Se0. rewrite !means_single. now apply text_hid.
Qed.

(** ** Sequences of pieces *)
Definition piece_ok (p : S_Exec.piece) : Prop :=
  match p with
  | PcStm (SIf c b els) | PcStm (SFor c b els) => deciding c /\ goods b /\ goods els
  | PcStm s => goods [s]
  | PcElse b => goods b
  | PcCase c b => deciding c /\ goods b
  end.
Inductive goodl : list S_Exec.piece -> Prop :=
| gl_nil : goodl []
| gl_piece : forall p l, piece_ok p -> goodl l -> goodl (p :: l)
| gl_elem : forall A c B l, Forall loose A -> A <> [] -> Forall loose B -> B <> [] -> goodl c ->
    (forall content, assemble c = Some content -> goods content -> goods (A ++ content ++ B)) ->
    goodl l -> goodl (map PcStm A ++ c ++ map PcStm B ++ l).
Lemma goodl_app : forall a b, goodl a -> goodl b -> goodl (a ++ b).
Proof.
  intros a b Ga Gb. induction Ga as [|p l Hp Ga IH|A c B l FA NA FB NB Gc IHc H Gl IHl]; [exact Gb| |].
  - cbn [app]. now constructor.
  - rewrite <- !app_assoc. now apply gl_elem.
Qed.
Lemma ok_stm : forall s, piece_ok (PcStm s) -> goods [s].
Proof. intros s H. destruct s; try exact H; destruct H as (H0 & H1 & H2); [now apply good_if|now apply good_for]. Qed.
Lemma goodl_else : forall l, goodl l -> forall b l', l = PcElse b :: l' -> goods b /\ goodl l'.
Proof.
  intros l Gl. destruct Gl as [|p l Hp Gl|A c B l FA NA FB NB Gc H Gl]; intros b l' E; [discriminate| |].
  - injection E as -> ->. split; assumption.
  - destruct A as [|a A]; [congruence|discriminate].
Qed.
Lemma goodl_assemble : forall n ps ss, length ps <= n -> goodl ps -> assemble ps = Some ss -> goods ss.
Proof.
  induction n as [|n IH]; intros ps ss Hn Gl E.
  { destruct ps; [|cbn in Hn; lia]. injection E as <-. apply goods_nil. }
  destruct Gl as [|p l Hp Gl|A c B l FA NA FB NB Gc H Gl].
  - injection E as <-. apply goods_nil.
  - cbn [length] in Hn. destruct p as [s|b|c b]; [|discriminate|discriminate].
    assert (Q : option_map (cons s) (assemble l) = Some ss -> goods ss).
    { intros E1. destruct (assemble l) as [s0|] eqn:El; [|discriminate]. assert (ss = [s] ++ s0) as -> by (cbn [option_map] in E1; cbn [app]; congruence).
      apply goods_app; [now apply ok_stm|]. apply (IH l); [lia|assumption..]. }
    destruct s; try (apply Q; exact E).
    + destruct l as [|[s'|b'|c' b'] l]; try (apply Q; exact E). cbn [assemble] in E. destruct (assemble l) as [s0|] eqn:El; [|discriminate].
      destruct (goodl_else _ Gl _ _ eq_refl) as [Gb Gl']. assert (ss = [SIf c b b'] ++ s0) as -> by (cbn [option_map] in E; cbn [app]; congruence).
      apply goods_app; [apply good_if; [apply Hp|apply Hp|exact Gb]|]. apply (IH l); [cbn [length] in Hn; lia|assumption..].
    + destruct l as [|[s'|b'|c' b'] l]; try (apply Q; exact E). cbn [assemble] in E. destruct (assemble l) as [s0|] eqn:El; [|discriminate].
      destruct (goodl_else _ Gl _ _ eq_refl) as [Gb Gl']. assert (ss = [SFor d b b'] ++ s0) as -> by (cbn [option_map] in E; cbn [app]; congruence).
      apply goods_app; [apply good_for; [apply Hp|apply Hp|exact Gb]|]. apply (IH l); [cbn [length] in Hn; lia|assumption..].
  - rewrite !app_length, !map_length in Hn. assert (0 < length A) by (destruct A; [congruence|cbn; lia]).
    rewrite assemble_loose in E by assumption. destruct (assemble (c ++ map PcStm B ++ l)) as [s0|] eqn:E0; [|discriminate].
    destruct (assemble_app_loose (length c) c B l s0 (le_n _) FB NB E0) as (s1 & s2 & Ec & El & ->). assert (ss = (A ++ s1 ++ B) ++ s2) as -> by (cbn [option_map] in E; rewrite <- !app_assoc; congruence).
    apply goods_app; [|apply (IH l); [lia|assumption..]]. apply H; [exact Ec|]. apply (IH c); [lia|assumption..].
Qed.
Definition part_ok (p : S_Exec.piece) : Prop := match p with PcElse b => goods b | PcCase c b => deciding c /\ goods b | _ => True end.
Lemma stms_parts : forall A, Forall part_ok (map PcStm A).
Proof. induction A; constructor; [exact Logic.I|assumption]. Qed.
Lemma goodl_parts : forall l, goodl l -> Forall part_ok l.
Proof.
  intros l Gl. induction Gl as [|p l Hp Gl IH|A c B l FA NA FB NB Gc IHc H Gl IHl]; [constructor| |].
  - constructor; [|exact IH]. destruct p; [exact Logic.I|exact Hp..].
  - rewrite !Forall_app. split; [apply stms_parts|]. split; [exact IHc|]. split; [apply stms_parts|exact IHl].
Qed.
Lemma parts_switch : forall n l cases els, length l <= n -> Forall part_ok l -> assemble_switch l = Some (cases, els) ->
  Forall (fun cb => deciding (fst cb) /\ goods (snd cb)) cases /\ goods els.
Proof.
  induction n as [|n IH]; intros l cases els Hn F E.
  { destruct l; [|cbn in Hn; lia]. injection E as <- <-. split; [constructor|apply goods_nil]. }
  destruct l as [|p l]; [injection E as <- <-; split; [constructor|apply goods_nil]|]. apply Forall_cons_iff in F. destruct F as [Fp F]. cbn [length] in Hn.
  destruct p as [s|b|c b]; cbn [assemble_switch] in E; [discriminate| |].
  - destruct l; [|discriminate]. injection E as <- <-. split; [constructor|exact Fp].
  - destruct (assemble_switch l) as [[cs es]|] eqn:El; [|discriminate]. cbn [option_map fst snd] in E. injection E as <- <-.
    destruct (IH l cs es ltac:(lia) F El) as [F1 F2]. split; [constructor; assumption|exact F2].
Qed.

(** ** Texts that are no markup *)
Notation raw_part := (raw_part py html free texts).
Definition fit2 (s s' : str) : Prop := fits html s /\ fits html s'.
Definition flats (ss : list stm) : Prop := forall e e', alike_env e e' -> both fit2 (means py ss e) (means py ss e').
Lemma raw_flat : forall ss, Forall raw_part ss -> flats ss.
Proof.
  intros ss F. induction F as [|s ss Hs F IH]; intros e e' Se; cbn [means]; [split; [exact Se|split; apply fits_nil]|].
  apply (both_then fit2 fit2 fit2); [|exact IH|intros a b c d [A1 A2] [B1 B2]; split; now apply fits_app].
  destruct s as [ |t [g|]|t [g|]|x [|]|c b els|d b els|vars b|d cases els|k v g m|x g m]; try contradiction; cbn [S_Blind.raw_part] in Hs; cbn [meaning]; unfold under; cbn [truthy_guard].
  - split; [exact Se|]. rewrite render_str. now split.
  - split; [exact Se|]. destruct (strip t); [rewrite render_str|]; now split.
  - pose proof (bl_expr py html free texts deciding G e e' x Se) as H. destruct (Hs e e' Se) as [T1 T2]. unfold alike_results in H. destruct (ev py e x) as [v|]; destruct (ev py e' x) as [v'|]; try contradiction; cbn [rmap]; [|exact H].
    split; [exact Se|]. destruct (T1 v eq_refl). destruct (T2 v' eq_refl). split; now apply fits_plain.
Qed.
Lemma raw_loose : forall ss, Forall raw_part ss -> Forall loose ss.
Proof. intros ss F. eapply Forall_impl; [|exact F]. intros s H. destruct s; try exact Logic.I; destruct H. Qed.
Lemma flats_good : forall a ss b, flats ss -> (forall s s', fit2 s s' -> pair (a ++ s ++ b) (a ++ s' ++ b)) -> goods (SText a None :: ss ++ [SText b None]).
Proof.
  intros a ss b F J e e' Se. assert (Sh : forall e r, under py None e r = r) by reflexivity. cbn [means].
  apply (both_then (is_text a) (fun t t' => exists s s', t = s ++ b /\ t' = s' ++ b /\ fit2 s s')); [now apply text_shown| |].
  - clear e e' Se. intros e e' Se. rewrite !means_app. apply (both_then fit2 (is_text b)); [now apply F| |].
    + clear e e' Se. intros e e' Se. rewrite !means_single. now apply text_shown.
    + intros s s' t t' Hs [-> ->]. now exists s, s'.
  - intros s s' t t' [-> ->] (u & u' & -> & -> & Hf). now apply J.
Qed.

(** ** Documents *)
Variable compile : str -> compiled.
Variable autoblocks : list str.
Variable scripts : bool.
Lemma texts_good : forall parent ln t ss, text_says compile parent ln t ss -> forall raw, t = xml_text raw -> goodl (map PcStm ss).
Proof.
  intros parent ln t ss T raw E. destruct T as [ps SS R|ps N1 N2 R]; pose proof (reads_texts compile ln t ps R raw E) as F; clear R; induction F as [|p ps Hp F IH]; cbn [map]; try constructor; try exact IH; clear IH F.
  - destruct p as [l x|l x]; cbn [text_stm].
    + destruct Hp as [v W]. cbn [piece_ok]. apply good_text. now apply (pair_text v).
    + cbn [piece_ok]. apply good_expr.
  - destruct p as [l x|l x]; cbn [text_stm].
    + destruct Hp as [v W]. destruct (forallb is_space x); cbn [piece_ok]; [apply good_text; now apply (pair_text v)|now apply (good_trans x v)].
    + cbn [piece_ok]. apply good_expr.
Qed.
Lemma shown_attrs : forall ln g l ss, attrs_say compile mode ln g l ss -> (forall k v, In (k, v) l -> ~ special_attr k -> legal_name k) -> Forall (tag_attr g) ss.
Proof.
  intros ln g l ss H Hl. induction H as [|k v l ss ps Sp Hr H IH|k v l ps ss Sp R H IH]; [constructor| |].
  - apply IH. intros k' v' I1. apply (Hl k' v'). now right.
  - constructor; [|apply IH; intros k' v' I1; apply (Hl k' v'); now right]. left. exists k. eexists. split; [reflexivity|]. split; [apply (Hl k v); [now left|exact Sp]|].
    clear. induction ps as [|[l x|l x] ps IH]; cbn [map text_stm]; constructor; try exact Logic.I; exact IH.
Qed.
Lemma more_good : forall g a ss, more_attrs mode g a ss -> Forall (tag_attr g) ss.
Proof. intros g a ss [|x V Nx]; [constructor|]. constructor; [|constructor]. right. now exists x. Qed.
Lemma attr_loose : forall g A, Forall (tag_attr g) A -> Forall loose A.
Proof. intros g A F. eapply Forall_impl; [|exact F]. intros s [(k & v & -> & _)|(x & ->)]; exact Logic.I. Qed.
Definition rest_ok (tag : str) (g : option str) (rest : list S_Exec.piece) : Prop :=
  legal_name tag -> prefixb (L "!") tag = false -> steady py g -> forall A, Forall (tag_attr g) A ->
  goodl (PcStm (SText (L "<" ++ tag) g) :: map PcStm A ++ rest).
Lemma rest_between : forall tag g cps, goodl cps -> ~ (html = true /\ S_Markup.void tag) -> ~ (html = true /\ raw tag) -> rest_ok tag g (PcStm (SText (L ">") g) :: cps ++ [PcStm (SText (L "</" ++ tag ++ L ">") g)]).
Proof.
  intros tag g cps Gc Nv Ns Lt Nb St A FA.
  assert (E : PcStm (SText (L "<" ++ tag) g) :: map PcStm A ++ PcStm (SText (L ">") g) :: cps ++ [PcStm (SText (L "</" ++ tag ++ L ">") g)] =
    map PcStm (SText (L "<" ++ tag) g :: A ++ [SText (L ">") g]) ++ cps ++ map PcStm [SText (L "</" ++ tag ++ L ">") g] ++ []).
  { cbn [map]. rewrite map_app, app_nil_r. cbn [map app]. now rewrite <- app_assoc. }
  rewrite E. clear E. apply gl_elem; [|discriminate|constructor; [exact Logic.I|constructor]|discriminate|exact Gc| |constructor].
  - constructor; [exact Logic.I|]. rewrite Forall_app. split; [now apply (attr_loose g)|constructor; [exact Logic.I|constructor]].
  - intros content _ Gd. pose proof (element_good g (L "<" ++ tag) A content (L ">") (L "</" ++ tag ++ L ">") St FA Gd) as H. cbn [app]. rewrite <- app_assoc. cbn [app]. apply H.
    intros s s' b b' (a & a' & Wa & Wa' & S) (i & j & Wi & Wj & Si). exists (I_start tag a :: i ++ I_end tag :: []), (I_start tag a' :: j ++ I_end tag :: []).
    rewrite <- (app_nil_r (L "</" ++ tag ++ L ">")), <- !app_assoc. split; [apply w_elem; try assumption; constructor|]. split; [apply w_elem; try assumption; constructor|].
    change (structure_of ([I_start tag a] ++ i ++ [I_end tag]) = structure_of ([I_start tag a'] ++ j ++ [I_end tag])). rewrite !structure_app, Si. cbn. now rewrite S.
Qed.
Lemma closes_shown : forall tag t a s, closes mode tag t -> legal_name tag -> prefixb (L "!") tag = false -> written_attrs a s ->
  written html [I_start tag a; I_end tag] (L "<" ++ tag ++ s ++ t).
Proof.
  intros tag t a s C Lt Nb W.
  assert (Wb : ~ (html = true /\ S_Markup.void tag) -> written html [I_start tag a; I_end tag] (L "<" ++ tag ++ s ++ L "></" ++ tag ++ L ">")).
  { intros Nv. destruct (rawb_cases html tag) as [[Hh Hr]|Nr].
    - change [I_start tag a; I_end tag] with (I_start tag a :: map I_char [] ++ I_end tag :: []). change (L "></" ++ tag ++ L ">") with (L ">" ++ [] ++ L "</" ++ tag ++ L ">" ++ []). apply w_raw; try assumption; try constructor; intros (x & y & Ex); destruct x; discriminate.
    - change [I_start tag a; I_end tag] with (I_start tag a :: [] ++ I_end tag :: []). change (L "></" ++ tag ++ L ">") with (L ">" ++ [] ++ L "</" ++ tag ++ L ">" ++ []). apply w_elem; try assumption; constructor. }
  destruct C as [Hh V|Hh Nv| ->|Hh Ns].
  - rewrite <- (app_nil_r (L ">")). apply w_void; [unfold is_html in Hh; congruence|exact V|exact W|constructor].
  - apply Wb. intros [_ V]. now apply Nv.
  - apply Wb. intros [_ V]. vm_compute in V. intuition discriminate.
  - rewrite <- (app_nil_r (L "/>")). apply w_empty; try assumption; [|constructor]. unfold is_html in Hh. destruct html; [congruence|reflexivity].
Qed.
Lemma rest_closed : forall tag g t cps, closes mode tag t -> goodl cps -> rest_ok tag g (PcStm (SText t g) :: cps).
Proof.
  intros tag g t cps C Gc Lt Nb St A FA.
  change (goodl (map PcStm (SText (L "<" ++ tag) g :: A) ++ [] ++ map PcStm [SText t g] ++ cps)).
  apply gl_elem; [|discriminate|constructor; [exact Logic.I|constructor]|discriminate|constructor| |exact Gc].
  - constructor; [exact Logic.I|]. now apply (attr_loose g).
  - intros content Ec _. cbn [assemble] in Ec. assert (content = []) as -> by congruence. cbn [app]. apply (empty_good g (L "<" ++ tag) A t St FA).
    intros s s' (a & a' & Wa & Wa' & S). exists [I_start tag a; I_end tag], [I_start tag a'; I_end tag]. rewrite <- !app_assoc. split; [now apply closes_shown|]. split; [now apply closes_shown|]. cbn. now rewrite S.
Qed.
(** A script or style element. *)
Lemma rest_flat : forall tag ss, script_or_style tag -> Forall loose ss ->
  (forall A, Forall (tag_attr None) A -> goods (SText (L "<" ++ tag) None :: A ++ SText (L ">") None :: ss ++ [SText (L "</" ++ tag ++ L ">") None])) ->
  rest_ok tag None (PcStm (SText (L ">") None) :: map PcStm ss ++ [PcStm (SText (L "</" ++ tag ++ L ">") None)]).
Proof.
  intros tag ss SS Fl H Lt Nb St A FA.
  assert (E : PcStm (SText (L "<" ++ tag) None) :: map PcStm A ++ PcStm (SText (L ">") None) :: map PcStm ss ++ [PcStm (SText (L "</" ++ tag ++ L ">") None)] =
    map PcStm (SText (L "<" ++ tag) None :: A ++ SText (L ">") None :: ss) ++ [] ++ map PcStm [SText (L "</" ++ tag ++ L ">") None] ++ []).
  { cbn [map]. rewrite map_app, app_nil_r. cbn [map app]. now rewrite <- app_assoc. }
  rewrite E. clear E. apply gl_elem; [|discriminate|repeat constructor|discriminate|constructor| |constructor].
  - constructor; [exact Logic.I|]. rewrite Forall_app. split; [now apply (attr_loose None)|]. constructor; [exact Logic.I|exact Fl].
  - intros content Ec _. cbn [assemble] in Ec. assert (content = []) as -> by congruence. cbn [app]. rewrite <- app_assoc. cbn [app]. now apply H.
Qed.
Lemma rest_html : forall tag ss, html = true -> script_or_style tag -> Forall raw_part ss -> rest_ok tag None (PcStm (SText (L ">") None) :: map PcStm ss ++ [PcStm (SText (L "</" ++ tag ++ L ">") None)]).
Proof.
  intros tag ss Hh SS F. apply rest_flat; [exact SS|now apply raw_loose|]. intros A FA. apply (element_shown fit2); [reflexivity|exact FA|now apply raw_flat|].
  intros s s' b b' (a & a' & Wa & Wa' & Sa) [Fb Fb']. exists (I_start tag a :: map I_char b ++ I_end tag :: []), (I_start tag a' :: map I_char b' ++ I_end tag :: []).
  rewrite <- (app_nil_r (L "</" ++ tag ++ L ">")), <- !app_assoc. rewrite Hh in Fb, Fb'.
  split; [apply w_raw; try assumption; [now apply fits_end_tag|now apply fits_comment|constructor]|]. split; [apply w_raw; try assumption; [now apply fits_end_tag|now apply fits_comment|constructor]|].
  change (structure_of ([I_start tag a] ++ map I_char b ++ [I_end tag]) = structure_of ([I_start tag a'] ++ map I_char b' ++ [I_end tag])). rewrite !structure_app, !structure_chars. cbn. now rewrite Sa.
Qed.
Lemma rest_xml : forall tag ss, html = false -> script_or_style tag -> Forall raw_part ss ->
  rest_ok tag None (PcStm (SText (L ">") None) :: map PcStm (SText (L "/*<![CDATA[*/") None :: ss ++ [SText (L "/*]]>*/") None]) ++ [PcStm (SText (L "</" ++ tag ++ L ">") None)]).
Proof.
  intros tag ss Hh SS F. destruct (raw_tag tag SS) as (Lt & Nb & _). apply rest_flat; [exact SS| |].
  - constructor; [exact Logic.I|]. apply Forall_app. split; [now apply raw_loose|repeat constructor].
  - intros A FA. apply (element_shown pair); [reflexivity|exact FA| |].
    + apply flats_good; [now apply raw_flat|]. intros s s' [Fs Fs']. rewrite Hh in Fs, Fs'. exists (map I_char (L "/**/" ++ s ++ L "/**/")), (map I_char (L "/**/" ++ s' ++ L "/**/")). rewrite Hh.
      split; [now apply section_items|]. split; [now apply section_items|]. now rewrite !structure_chars.
    + intros s s' b b' (a & a' & Wa & Wa' & Sa) (i & j & Wi & Wj & Si). exists (I_start tag a :: i ++ I_end tag :: []), (I_start tag a' :: j ++ I_end tag :: []).
      rewrite <- (app_nil_r (L "</" ++ tag ++ L ">")), <- !app_assoc. split; [apply w_elem; try assumption; try (intros [X _]; congruence); constructor|]. split; [apply w_elem; try assumption; try (intros [X _]; congruence); constructor|].
      change (structure_of ([I_start tag a] ++ i ++ [I_end tag]) = structure_of ([I_start tag a'] ++ j ++ [I_end tag])). rewrite !structure_app, Si. cbn. now rewrite Sa.
Qed.
Lemma cdata_good : forall ss l, html = false -> Forall raw_part ss -> goodl l ->
  goodl (PcStm (SText (L "<![CDATA[") None) :: map PcStm ss ++ PcStm (SText (L "]]>") None) :: l).
Proof.
  intros ss l Hh F Gl. change (goodl (map PcStm (SText (L "<![CDATA[") None :: ss) ++ [] ++ map PcStm [SText (L "]]>") None] ++ l)).
  apply gl_elem; [|discriminate|repeat constructor|discriminate|constructor| |exact Gl].
  - constructor; [exact Logic.I|now apply raw_loose].
  - intros content Ec _. cbn [assemble] in Ec. assert (content = []) as -> by congruence. cbn [app]. apply flats_good; [now apply raw_flat|]. intros s s' [Fs Fs']. rewrite Hh in Fs, Fs'.
    exists (map I_char s ++ []), (map I_char s' ++ []). rewrite Hh. rewrite <- (app_nil_r (L "]]>")). split; [apply w_cdata; [now apply fits_section|constructor]|]. split; [apply w_cdata; [now apply fits_section|constructor]|].
    now rewrite !structure_app, !structure_chars.
Qed.
Notation settled := (settled py html free texts deciding compile scripts mode).
Notation settleds := (settleds py html free texts deciding compile scripts mode).
Notation settles := (settles py html free texts deciding).
Notation raw_node := (raw_node py html free texts compile).
Notation raw_inside := (raw_inside py html free texts compile scripts mode).
Lemma says_good :
  (forall parent prev n ps, says compile autoblocks scripts mode parent prev n ps ->
     (settled n -> goodl ps) /\ (raw_node parent n -> exists ss, ps = map PcStm ss /\ Forall raw_part ss)) /\
  (forall ln tag a g cs rest, rest_says compile autoblocks scripts mode ln tag a g cs rest -> NoDup (map fst a) ->
     (settleds tag cs -> ~ (script_or_style tag /\ (scripts = true \/ html = true)) -> (html = true -> S_Markup.void tag -> no_content_attr a) -> rest_ok tag g rest) /\
     (script_or_style tag -> scripts = true \/ html = true -> raw_inside tag a cs -> g = None -> rest_ok tag g rest)) /\
  (forall marks parent prev l ps, all_say compile autoblocks scripts mode marks parent prev l ps ->
     (marks = false -> Forall settled l -> goodl ps) /\ (marks = true -> settleds parent l -> goodl ps) /\
     (Forall (raw_node parent) l -> exists ss, ps = map PcStm ss /\ Forall raw_part ss) /\
     (marks = true -> forall ts ln l', l = ts ++ DMark ln (L "]]>") :: l' -> Forall (raw_node parent) ts -> settleds parent l' ->
        exists ss qs, ps = map PcStm ss ++ PcStm (SText (L "]]>") None) :: qs /\ Forall raw_part ss /\ goodl qs)).
Proof.
  assert (Inside : forall ln tag a cs, prefixb (L "py:") tag = true -> settled (DElem ln tag a cs) -> Forall settled cs /\ settles tag a).
  { intros ln tag a cs Py O. inversion O as [| |? ? ? ? P Tw F|? ? ? ? P|? ? ? ? SS]; [now split|congruence|]. destruct (raw_tag tag SS) as (_ & _ & _ & P). congruence. }
  assert (Two : html = true \/ html = false) by (destruct html; auto).
  assert (Block : forall ps b, goodl ps -> assemble_block ps = Some b -> goods b) by (intros ps b Gl A; apply P_Exec3.block_some in A as [A _]; now apply (goodl_assemble (length ps) ps b)).
  apply says_induction.
  - intros parent prev ln t Np. split; [|intros []]. intros O. inversion O as [|? ? Nt| | |]. constructor; [|constructor]. cbn [piece_ok]. apply good_text. exists [I_comment (L " " ++ t ++ L " ")], [I_comment (L " " ++ t ++ L " ")]. split; [now apply comment_written|]. split; [now apply comment_written|reflexivity].
  - intros. split; [constructor|intros []].
  - intros parent prev ln t e ss T. split.
    + intros O. remember (DText ln t e) as n eqn:En. destruct O as [ln0 raw e0| | | |]; try discriminate En. apply (texts_good parent ln t ss T raw). congruence.
    + intros R. exists ss. split; [reflexivity|]. now apply R.
  - intros parent prev ln t ss T. split; [|intros []]. intros O. inversion O.
  - intros parent prev ln a cs test ps b Na Et H IH A. split; [|intros []]. intros O. apply Inside in O as [F (D & _)]; [|reflexivity]. constructor; [|constructor]. split; [rewrite <- Et; now apply D|]. split; [|apply goods_nil]. apply (Block ps); [now apply (proj1 IH eq_refl)|exact A].
  - intros parent prev ln a cs ps b Na Hp H IH A. split; [|intros []]. intros O. apply Inside in O as [F _]; [|reflexivity]. constructor; [|constructor]. apply (Block ps); [now apply (proj1 IH eq_refl)|exact A].
  - intros parent prev ln a cs each ps b Na Et H IH A. split; [|intros []]. intros O. apply Inside in O as [F (_ & D & _)]; [|reflexivity]. constructor; [|constructor]. split; [rewrite <- Et; now apply D|]. split; [|apply goods_nil]. apply (Block ps); [now apply (proj1 IH eq_refl)|exact A].
  - intros parent prev ln a cs vars ps b Na Et H IH A. split; [|intros []]. intros O. apply Inside in O as [F (_ & _ & _ & _ & D)]; [|reflexivity]. constructor; [|constructor]. cbn [piece_ok]. apply good_with; [now apply (D eq_refl)|]. apply (goodl_assemble (length ps) ps); [apply le_n|now apply (proj1 IH eq_refl)|exact A].
  - intros parent prev ln a cs test ps cases els Na Et H IH A. split; [|intros []]. intros O. apply Inside in O as [F (_ & _ & D & _)]; [|reflexivity]. constructor; [|constructor]. cbn [piece_ok].
    assert (Forall part_ok (filter (fun p => negb (blank_text p)) ps)) as Fp.
    { pose proof (proj1 IH eq_refl F) as Q. apply goodl_parts in Q. rewrite Forall_forall in *. intros x I1. apply filter_In in I1. now apply Q. }
    destruct (parts_switch _ _ cases els (le_n _) Fp A) as [F1 F2]. apply good_switch; [rewrite <- Et; now apply D|exact F1|exact F2].
  - intros parent prev ln a cs v ps b Na Et H IH A. split; [|intros []]. intros O. apply Inside in O as [F (_ & _ & _ & D & _)]; [|reflexivity]. constructor; [|constructor]. split; [rewrite <- Et; now apply D|]. apply (Block ps); [now apply (proj1 IH eq_refl)|exact A].
  - intros parent prev ln a cs x Na Ex. split; [|intros []]. intros O. constructor; [|constructor]. apply good_expr.
  - intros parent prev ln a cs ps Na H IH. split; [|intros []]. intros O. apply Inside in O as [F _]; [|reflexivity]. now apply (proj1 IH eq_refl).
  - intros parent prev ln tag a cs g sorted shown more rest Py Na ND Tc Pm Ss As Ma H IH. split; [|intros []]. intros O.
    assert (FA : legal_attrs a -> Forall (tag_attr g) (shown ++ more)).
    { intros Lk. rewrite Forall_app. split; [|now apply (more_good g a)]. apply (shown_attrs ln g sorted shown As). intros k v I1. apply (Lk k v). eapply Permutation_in; [symmetry; exact Pm|exact I1]. }
    rewrite app_assoc, <- map_app. destruct (IH ND) as [IH1 IH2]. inversion O as [| |? ? ? ? P|? ? ? ? P Lt Nb Ns Lk Nc St F|? ? ? ? SS Hs Lk Ab Rc]; [congruence| |].
    + now apply (IH1 F Ns Nc Lt Nb (St g Tc)), FA.
    + assert (g = None) as ->. { destruct Tc as [_|V|c V]; [reflexivity| |]; destruct Ab; apply in_map_iff; eexists; (split; [|exact V]); reflexivity. }
      destruct (raw_tag tag SS) as (Lt & Nb & _ & _). apply (IH2 SS Hs Rc eq_refl Lt Nb Logic.I). now apply FA.
  - intros ln tag a g cs c V Nc ND. assert (Nr : ~ (script_or_style tag /\ (scripts = true \/ html = true)) -> ~ (html = true /\ raw tag)) by (intros Ns [Hh Hr]; apply Ns; split; [exact Hr|now right]). split.
    + intros F Ns Hc. apply (rest_between tag g [PcStm (SExpr c false)]); [| |now apply Nr].
      * constructor; [|constructor]. apply good_expr.
      * intros [Hh Hv]. destruct (Hc Hh Hv) as [Ab|V0].
        -- apply Ab. apply in_map_iff. now exists (L "py:content", c).
        -- apply Nc. rewrite <- (get_attr_value _ _ _ ND V). now apply get_attr_value.
    + intros SS Hs (Rc & _) ->. destruct Two as [Hh|Hh].
      * apply (rest_html tag [SExpr c false] Hh SS). constructor; [|constructor]. now apply (Rc Hh c V).
      * apply (rest_between tag None [PcStm (SExpr c false)]); try (intros [X _]; congruence). constructor; [|constructor]. apply good_expr.
  - intros ln tag a g t Nc C ND. split; intros; apply rest_closed; try exact C; constructor.
  - intros ln tag a g cs ss Nc Ncs Sc SS H ND. split; [intros F Ns; destruct Ns; split; [exact SS|now left]|]. intros _ _ (_ & Rc & _) ->. destruct (Rc Sc) as [Hm Rs]. specialize (Rs ss H). unfold cdata_open, cdata_close.
    destruct Two as [Hh|Hh].
    + assert (seqb mode (L "xml") = false) as -> by (destruct (seqb_spec mode (L "xml")) as [Em|]; [|reflexivity]; rewrite Em in Hmode; cbn in Hmode; congruence). rewrite app_nil_r. now apply rest_html.
    + rewrite (Hm Hh), seqb_refl. now apply rest_xml.
  - intros ln tag a g cs ps Nc Ncs Ns0 Nv H IH ND. split.
    + intros F Ns Hc. apply rest_between; [now apply IH| |].
      * intros [Hh V]. apply Nv. split; [unfold is_html; congruence|exact V].
      * intros [Hh Hr]. apply Ns. split; [exact Hr|now right].
    + intros SS Hs (_ & _ & Rc) ->. destruct Hs as [Hs|Hh]; [destruct Ns0; now split|]. assert (Hsc : scripts = false) by (destruct scripts; [destruct Ns0; now split|reflexivity]). destruct (proj1 (proj2 (proj2 IH)) (Rc Hsc)) as (ss & -> & Fs). now apply rest_html.
  - intros ln tag a g cs ps Nc Ncs Hh V H IH ND. split; [|intros SS; destruct (raw_tag tag SS) as (_ & _ & Nv & _); now destruct Nv].
    intros F Ns Hc. apply rest_closed; [now apply cl_void|now apply IH].
  - intros marks parent prev. split; [constructor|]. split; [constructor|]. split; [intros _; now exists []|]. intros _ ts ln l' E. destruct ts; discriminate.
  - intros parent prev ln t l ps H (IH1 & IH2 & IH3 & IH4). split; [discriminate|]. split; [|split].
    + intros _ O. inversion O as [|? ? ? On|? l1 l2 ts l0 Hh Ft Ol]; [inversion On|]. subst. destruct (IH4 eq_refl ts l2 l0 eq_refl Ft Ol) as (ss & qs & -> & Fs & Gq). now apply cdata_good.
    + intros F. apply Forall_cons_iff in F. destruct F as [[] _].
    + intros _ ts ln0 l' E Ft Ol. destruct ts as [|n ts].
      * cbn [app] in E. assert (t = L "]]>" /\ l = l') as [-> ->] by (split; congruence). exists [], ps. split; [reflexivity|]. split; [constructor|]. now apply IH2.
      * apply Forall_cons_iff in Ft. destruct Ft as [Rn _]. cbn [app] in E. assert (n = DMark ln t) as -> by congruence. destruct Rn.
  - intros marks parent prev n l ps qs Hm H (IHn & IHr) H' (IH1 & IH2 & IH3 & IH4). split; [|split; [|split]].
    + intros Em F. apply Forall_cons_iff in F. destruct F as [O F]. apply goodl_app; [now apply IHn|now apply IH1].
    + intros Em O. inversion O as [|? ? ? On Ol|? l1 l2 ts l0 Hh Ft Ol]; subst.
      * apply goodl_app; [now apply IHn|now apply IH2].
      * exfalso. destruct Hm as [Hm|Hm]; [discriminate|]. now apply Hm.
    + intros F. apply Forall_cons_iff in F. destruct F as [R F]. destruct (IHr R) as (s1 & -> & F1). destruct (IH3 F) as (s2 & -> & F2). exists (s1 ++ s2). rewrite map_app. split; [reflexivity|]. now apply Forall_app.
    + intros Em ts ln0 l' E Ft Ol. destruct ts as [|m ts].
      * exfalso. cbn [app] in E. assert (n = DMark ln0 (L "]]>")) as -> by congruence. destruct Hm as [Hm|Hm]; [congruence|]. now apply Hm.
      * apply Forall_cons_iff in Ft. destruct Ft as [Rm Ft]. cbn [app] in E. assert (n = m /\ l = ts ++ DMark ln0 (L "]]>") :: l') as [-> El] by (split; congruence).
        destruct (IHr Rm) as (s1 & -> & F1). destruct (IH4 Em ts ln0 l' El Ft Ol) as (s2 & q2 & -> & F2 & Gq). exists (s1 ++ s2), q2. rewrite map_app, <- app_assoc. split; [reflexivity|]. split; [now apply Forall_app|exact Gq].
Qed.
Lemma document_blind : forall parent prev n ps ss e e', says compile autoblocks scripts mode parent prev n ps -> assemble ps = Some ss -> settled n ->
  alike_env e e' -> both pair (means py ss e) (means py ss e').
Proof. intros parent prev n ps ss e e' H A O Se. exact (goodl_assemble (length ps) ps ss (le_n _) (proj1 (proj1 says_good _ _ _ _ H) O) A e e' Se). Qed.
End Blind.
