(** * The passes over the tree keep the lines of characters *)

From Coq Require Import Ascii String List NArith ZArith Bool Lia Arith.
From Verif Require Import PyStr PyStrLemmas M_Text S_Text P_Text2 P_Text3 M_Html5 M_Entities S_Entities M_Dom S_Dom S_DomLines M_XText S_XText P_Entities P_Dom P_Dom2.
Import ListNotations.
Open Scope nat_scope.
Open Scope list_scope.

Lemma characters_app : forall a b ln, characters_at ln (a ++ b) = characters_at ln a ++ characters_at (ln + count_nl a) b.
Proof.
  induction a as [|c a IH]; intros b ln; cbn [app characters_at].
  - change (count_nl []) with 0. now rewrite Nat.add_0_r.
  - rewrite IH. do 3 f_equal. change (c :: a) with ([c] ++ a). rewrite count_nl_app.
    destruct (N.eqb_spec c c_nl) as [->|Ne]; [change (count_nl [c_nl]) with 1; lia|].
    assert (E : count_nl [c] = 0) by (unfold count_nl; cbn; destruct (N.eqb_spec c c_nl); [congruence|reflexivity]). rewrite E. lia.
Qed.
Lemma visible_spaces : forall a ln, Forall space a -> filter visible (characters_at ln a) = [].
Proof. induction a as [|c a IH]; intros ln F; [reflexivity|]. apply Forall_cons_iff in F as [Hc F]. cbn [characters_at filter]. unfold visible at 1. cbn [snd]. unfold space in Hc. rewrite Hc. cbn [negb]. now apply IH. Qed.

(** ** Splitting *)
Lemma part_at : forall ln t e, flat_map text_at (part ln t e) = characters_at ln t.
Proof. intros ln [|c t] e; [reflexivity|]. cbn [part flat_map text_at]. now rewrite app_nil_r. Qed.
Lemma split_at : forall ln t e, flat_map text_at (split_text ln t e) = characters_at ln t.
Proof.
  intros ln t e. pose proof (proj2 (split_spec ln t e _) eq_refl) as S0. inversion S0 as [Hb E|a b c T E].
  - cbn [flat_map text_at]. now rewrite app_nil_r.
  - destruct T as (-> & _). rewrite !flat_map_app, !part_at. rewrite !characters_app, count_nl_app. now rewrite Nat.add_assoc.
Qed.
Lemma extract_at : forall n, text_at (extract_spaces n) = text_at n.
Proof.
  apply (dnode_rec' (fun n => text_at (extract_spaces n) = text_at n)); intros; try reflexivity. cbn [extract_spaces text_at].
  induction H as [|c cs Hc F IH]; [reflexivity|]. cbn [flat_map]. rewrite flat_map_app, IH. f_equal.
  destruct c; try (cbn [flat_map]; rewrite app_nil_r; exact Hc). apply split_at.
Qed.

(** ** Stripping *)
Lemma strip_at : forall n, filter visible (text_at (strip_texts n)) = filter visible (text_at n).
Proof.
  apply (dnode_rec' (fun n => filter visible (text_at (strip_texts n)) = filter visible (text_at n))); intros; try reflexivity.
  - cbn [strip_texts text_at]. induction H as [|c cs Hc F IH]; [reflexivity|]. cbn [map flat_map]. rewrite !filter_app. now rewrite IH, Hc.
  - cbn [strip_texts text_at]. destruct (lstrip_spec t) as (a & b & -> & Ha & Sb & El). unfold strip. rewrite El.
    destruct (rstrip_spec b) as (b0 & c & -> & Hc & _ & Er). rewrite Er.
    replace (length (a ++ b0 ++ c) - length (b0 ++ c)) with (length a) by (rewrite app_length; lia).
    rewrite firstn_app, firstn_all, Nat.sub_diag. cbn [firstn]. rewrite app_nil_r, !characters_app, !filter_app.
    now rewrite (visible_spaces a), (visible_spaces c), app_nil_r by assumption.
Qed.

(** ** Merging *)
Lemma step_tail : forall n l, in_step (n :: l) -> in_step l.
Proof. intros n l H a ln t e ln' t' e' b E. apply (H (n :: a) ln t e ln' t' e' b). now rewrite E. Qed.
Lemma step_child : forall ln tag a cs c, steps_right (DElem ln tag a cs) -> In c cs -> steps_right c.
Proof. intros ln tag a cs c U I ln' tag' a' cs' E. apply (U ln' tag' a'). eapply ei_below; eassumption. Qed.
Lemma step_run : forall run ln t e rest, Forall is_text run -> in_step (DText ln t e :: run ++ rest) ->
  flat_map text_at run = characters_at (ln + count_nl t) (concat (map data_of run)).
Proof.
  induction run as [|n run IH]; intros ln t e rest H F; [reflexivity|]. apply Forall_cons_iff in H as [Hn Hr].
  destruct n as [| l0 t0 e0 | | |]; try now destruct Hn. cbn [flat_map text_at map data_of concat].
  assert (l0 = ln + count_nl t) as -> by (apply (F [] ln t e l0 t0 e0 (run ++ rest)); reflexivity).
  rewrite characters_app. f_equal. apply (IH _ t0 e0 rest Hr). now apply step_tail in F.
Qed.
Theorem merged_at :
  (forall n n', merged n n' -> steps_right n -> text_at n' = text_at n) /\
  (forall l l', merged_list l l' -> in_step l -> Forall steps_right l -> flat_map text_at l' = flat_map text_at l).
Proof.
  apply merged_both; intros; try reflexivity.
  - cbn [text_at]. apply H.
    + match goal with U : steps_right _ |- _ => apply (U ln tag a) end. apply ei_here.
    + apply Forall_forall. intros c Ic. eapply step_child; eassumption.
  - cbn [flat_map text_at]. rewrite flat_map_app, characters_app.
    match goal with F : in_step _ |- _ => rewrite (step_run run ln t e rest) by assumption;
      assert (Fr : in_step rest) by (clear - F; revert F; change (DText ln t e :: run ++ rest) with ((DText ln t e :: run) ++ rest);
        induction (DText ln t e :: run) as [|x u IH]; [auto|intros F; apply IH; now apply step_tail in F]) end.
    rewrite <- app_assoc. do 2 f_equal. apply H; [exact Fr|].
    match goal with U : Forall steps_right _ |- _ => apply Forall_inv_tail in U; apply Forall_app in U as [_ U]; exact U end.
  - cbn [flat_map]. rewrite H, H0; [reflexivity| | |].
    + match goal with F : in_step _ |- _ => now apply step_tail in F end.
    + match goal with U : Forall steps_right _ |- _ => now apply Forall_inv_tail in U end.
    + match goal with U : Forall steps_right _ |- _ => now apply Forall_inv in U end.
Qed.
Lemma merge_at : forall n, steps_right n -> text_at (merge n) = text_at n.
Proof. intros n U. destruct (text_dec n) as [T|T]; [now rewrite merge_text|]. apply merged_at; [now apply merge_merged|exact U]. Qed.

(** ** Expanding *)
Lemma wrap_at : forall fuel ln tag a cs, text_at (wrap fuel ln tag a cs) = flat_map text_at cs.
Proof.
  induction fuel as [|fuel IH]; intros ln tag a cs; [reflexivity|]. cbn [wrap]. destruct (List.find _ qdirectives) as [[d arg]|]; [|reflexivity].
  cbn [text_at flat_map]. now rewrite app_nil_r, IH.
Qed.
Lemma expand_elem_at : forall ln tag a cs, text_at (expand_elem ln tag a cs) = flat_map text_at cs.
Proof.
  intros ln tag a cs. unfold expand_elem. destruct (rename tag a) as [tg at0]. destruct (negb (seqb tg py_nop) && has_attr py_extends at0); [|apply wrap_at].
  destruct (rename py_extends _) as [tg' at']. rewrite wrap_at. cbn [flat_map]. now rewrite wrap_at.
Qed.
Lemma expand_at : forall n, text_at (expand n) = text_at n.
Proof.
  apply (dnode_rec' (fun n => text_at (expand n) = text_at n)); intros; try reflexivity. cbn [expand]. rewrite expand_elem_at. cbn [text_at].
  induction H as [|c cs Hc F IH]; [reflexivity|]. cbn [map flat_map]. now rewrite IH, Hc.
Qed.
Lemma element_cases : forall ln tag a cs ln' tag' a' cs', element_in (DElem ln tag a cs) ln' tag' a' cs' ->
  cs' = cs \/ exists c, In c cs /\ element_in c ln' tag' a' cs'.
Proof. intros ln tag a cs ln' tag' a' cs' E. inversion E; subst; eauto. Qed.
Lemma wrap_steps : forall fuel ln tag a cs, in_step cs -> Forall steps_right cs -> steps_right (wrap fuel ln tag a cs).
Proof.
  induction fuel as [|fuel IH]; intros ln tag a cs I0 F.
  - cbn [wrap]. intros l t a0 c0 E. apply element_cases in E as [->|(c & Ic & E)]; [exact I0|]. rewrite Forall_forall in F. eapply (F c Ic); exact E.
  - cbn [wrap]. destruct (List.find _ qdirectives) as [[d arg]|].
    + intros l t a0 c0 E. apply element_cases in E as [->|(c & [<-|[]] & E)].
      * intros x ? ? ? ? ? ? y Ex. destruct x as [|? [|]]; discriminate.
      * eapply IH; eassumption.
    + intros l t a0 c0 E. apply element_cases in E as [->|(c & Ic & E)]; [exact I0|]. rewrite Forall_forall in F. eapply (F c Ic); exact E.
Qed.
Lemma step_map : forall f, (forall n, is_text (f n) <-> is_text n) -> (forall n, is_text n -> f n = n) -> forall l, in_step l -> in_step (map f l).
Proof.
  intros f K K2 l S0 a ln t e ln' t' e' b E. apply map_eq_app in E as (a0 & r & -> & _ & E).
  destruct r as [|x [|y r]]; try discriminate. cbn [map] in E. assert (Ex : f x = DText ln t e) by congruence. assert (Ey : f y = DText ln' t' e') by congruence.
  assert (Tx : is_text x) by (apply K; now rewrite Ex). assert (Ty : is_text y) by (apply K; now rewrite Ey).
  rewrite K2 in Ex, Ey by assumption. subst x y. eapply S0. reflexivity.
Qed.
Lemma no_step_first : forall n l, ~ is_text n -> in_step l -> in_step (n :: l).
Proof. intros n l N S0 a ln t e ln' t' e' b E. destruct a as [|x a]; [exfalso; apply N; injection E as -> _; exact Logic.I|]. eapply (S0 a). injection E as _ E. exact E. Qed.
Lemma expand_steps : forall n, steps_right n -> steps_right (expand n).
Proof.
  apply (dnode_rec' (fun n => steps_right n -> steps_right (expand n))); intros; try assumption. cbn [expand].
  assert (I0 : in_step (map expand cs)).
  { apply step_map; [apply expand_text|intros []; cbn; tauto|]. apply (H0 ln tag a). apply ei_here. }
  assert (F : Forall steps_right (map expand cs)).
  { apply Forall_forall. intros x Ix. apply in_map_iff in Ix as (c & <- & Ic). rewrite Forall_forall in H. apply (H c Ic). eapply step_child; eassumption. }
  unfold expand_elem. destruct (rename tag a) as [tg at0]. destruct (negb (seqb tg py_nop) && has_attr py_extends at0); [|now apply wrap_steps].
  destruct (rename py_extends _) as [tg' at']. apply wrap_steps.
  - apply no_step_first; [|exact I0]. destruct (length at'); cbn [wrap]; [tauto|]. destruct (List.find _ qdirectives) as [[]|]; cbn; tauto.
  - constructor; [|exact F]. apply wrap_steps; [|constructor]. intros x ? ? ? ? ? ? y Ex. destruct x; discriminate.
Qed.

Theorem transform_at : forall dtd l, Forall steps_right l ->
  flat_map text_at (d_children (transform false (Document dtd l))) = flat_map text_at l /\
  filter visible (flat_map text_at (d_children (transform true (Document dtd l)))) = filter visible (flat_map text_at l).
Proof.
  intros dtd l F. unfold transform. cbn [d_children d_dtd].
  assert (E : forall l, flat_map text_at (map extract_spaces l) = flat_map text_at l).
  { induction l0 as [|n l0 IH]; [reflexivity|]. cbn [map flat_map]. now rewrite IH, extract_at. }
  assert (M : flat_map text_at (on_first merge (on_first expand l)) = flat_map text_at l).
  { destruct F as [|n l Hn F]; [reflexivity|]. cbn [on_first flat_map]. rewrite merge_at by now apply expand_steps. now rewrite expand_at. }
  assert (St : forall l, filter visible (flat_map text_at (map strip_texts l)) = filter visible (flat_map text_at l)).
  { induction l0 as [|n l0 IH]; [reflexivity|]. cbn [map flat_map]. now rewrite !filter_app, IH, strip_at. }
  rewrite St, !E, M. now split.
Qed.

(** ** Events *)
Lemma escape_lines : forall s, count_nl (sax_escape s) = count_nl s.
Proof.
  intros s. rewrite sax_escape_eq. unfold xml_text. induction s as [|c s IH]; [reflexivity|]. cbn [flat_map]. rewrite count_nl_app, IH.
  change (c :: s) with ([c] ++ s). rewrite count_nl_app. f_equal.
  destruct (N.eqb_spec c c_amp) as [->|_]; [reflexivity|]. destruct (N.eqb_spec c c_lt) as [->|_]; [reflexivity|]. destruct (N.eqb_spec c c_gt) as [->|_]; reflexivity.
Qed.
Definition fine (cs : list dnode) : Prop := in_step (rev cs) /\ Forall steps_right cs.
Definition at_last (last : option nat) (cs : list dnode) : Prop :=
  match cs with DText ln t _ :: _ => last = Some (ln + count_nl t) | _ => True end.
Definition kept (last : option nat) (p : pstate) : Prop :=
  Forall (fun x => fine (snd x)) (open_els p) /\ Forall steps_right (doc_nodes p) /\
  match open_els p with (_, cs) :: _ => at_last last cs | [] => True end.

Lemma in_step_snoc : forall l n, in_step l ->
  match n, rev l with DText ln' _ _, DText ln t _ :: _ => ln' = ln + count_nl t | _, _ => True end -> in_step (l ++ [n]).
Proof.
  intros l n F H a ln t e ln' t' e' b E. destruct (rev b) as [|z rb] eqn:Eb.
  - assert (b = []) as -> by (apply (f_equal (@rev _)) in Eb; now rewrite rev_involutive in Eb).
    change (DText ln t e :: DText ln' t' e' :: []) with ([DText ln t e] ++ [DText ln' t' e']) in E. rewrite app_assoc in E.
    apply app_inj_tail in E as [-> ->]. rewrite rev_app_distr in H. exact H.
  - assert (b = rev rb ++ [z]) as -> by (apply (f_equal (@rev _)) in Eb; now rewrite rev_involutive in Eb).
    change (DText ln t e :: DText ln' t' e' :: rev rb ++ [z]) with ((DText ln t e :: DText ln' t' e' :: rev rb) ++ [z]) in E. rewrite app_assoc in E.
    apply app_inj_tail in E as [-> _]. apply (F a ln t e ln' t' e' (rev rb) eq_refl).
Qed.
Lemma steps_leaf : forall n, match n with DElem _ _ _ _ => False | _ => True end -> steps_right n.
Proof. intros n H ln tag a cs E. inversion E; subst; destruct H. Qed.
Lemma steps_elem : forall ln tag a cs, in_step cs -> Forall steps_right cs -> steps_right (DElem ln tag a cs).
Proof. intros ln tag a cs F U ln' tag' a' cs' E. inversion E; subst; [exact F|]. rewrite Forall_forall in U. eapply U; eassumption. Qed.

Lemma kept_append : forall n p last next, steps_right n -> kept last p ->
  (match n with DText ln t _ => (forall l, last = Some l -> ln = l) /\ next = Some (ln + count_nl t) | _ => True end) ->
  forall k, kept next (with_depth k (append_node n p)).
Proof.
  intros n [[|[[[ln tag] a] cs] els] docs k0] last next U (G & Un & Hf) Hn k.
  - cbn [append_node open_els doc_nodes cdata_depth] in *. split; [|split]; cbn; auto.
  - cbn [append_node open_els doc_nodes cdata_depth] in *. apply Forall_cons_iff in G as [[G1 G2] G3]. cbn [snd] in G1, G2.
    assert (Gn : fine (n :: cs)).
    { split; [|now constructor]. cbn [rev]. apply in_step_snoc; [exact G1|]. rewrite rev_involutive.
      destruct n; auto. destruct cs as [|[] cs]; auto. cbn [at_last] in Hf. now apply Hn. }
    split; [|split]; cbn; auto. destruct n; cbn; auto. now apply Hn.
Qed.
Lemma depth_same : forall p, with_depth (cdata_depth p) p = p.
Proof. intros []. reflexivity. Qed.
Lemma kept_append0 : forall n p last next, steps_right n -> kept last p ->
  (match n with DText ln t _ => (forall l, last = Some l -> ln = l) /\ next = Some (ln + count_nl t) | _ => True end) ->
  kept next (append_node n p).
Proof. intros n p last next U K H. rewrite <- depth_same. eapply kept_append; eassumption. Qed.

Lemma handle_kept : forall e p p' last, handle p e = Ok p' -> kept last p ->
  (forall l l', last = Some l -> begins_on e = Some l' -> l' = l) -> kept (ends_on e) p'.
Proof.
  intros e p p' last H I B. destruct e; cbn [handle] in H.
  - injection H as <-. destruct I as (G & Un & Hf). split; [|split]; cbn; auto. constructor; [|exact G]. split; [|constructor].
    intros [|? a0] ? ? ? ? ? ? ? E; discriminate.
  - destruct (open_els p) as [|[[[ln' tag] a] cs] els] eqn:Eo; [discriminate|]. destruct (seqb name tag); [|discriminate]. injection H as <-.
    destruct I as (G & Un & Hf). rewrite Eo in G. apply Forall_cons_iff in G as [[G1 G2] G3]. cbn [snd] in G1, G2.
    assert (Ue : steps_right (DElem ln' tag a (rev cs))) by (apply steps_elem; [exact G1|now apply Forall_rev]).
    destruct els as [|[[[ln2 tag2] a2] cs2] els]; cbn [append_node open_els doc_nodes cdata_depth].
    + split; [|split]; cbn; auto.
    + apply Forall_cons_iff in G3 as [[G4 G5] G6]. cbn [snd] in G4, G5. split; [|split]; cbn; auto. constructor; [|exact G6]. split; [|now constructor].
      cbn [snd rev]. apply in_step_snoc; [exact G4|exact Logic.I].
  - unfold append_text in H. destruct (open_els p) eqn:Eo; [discriminate|]. injection H as <-. eapply kept_append0; [now apply steps_leaf|exact I|]. split.
    + intros l0 E. now apply (B l0 ln).
    + cbn [ends_on]. destruct (negb (cdata_depth p =? 0)); [reflexivity|now rewrite escape_lines].
  - injection H as <-. eapply kept_append0; [now apply steps_leaf|exact I|exact Logic.I].
  - destruct (skipped_entity _ name) as [[d e]|] eqn:Es; [|discriminate]. cbn [rbind fst snd] in H.
    unfold append_text in H. destruct (open_els p) eqn:Eo; [discriminate|]. injection H as <-. eapply kept_append0; [now apply steps_leaf|exact I|]. split.
    + intros l0 E. now apply (B l0 ln).
    + cbn [ends_on]. unfold skipped_entity in *. destruct (assoc _ html5); [|discriminate]. unfold characters in *. injection Es as <- <-.
      destruct (negb (cdata_depth p =? 0)); [reflexivity|now rewrite escape_lines].
  - injection H as <-. eapply kept_append0; [now apply steps_leaf|exact I|exact Logic.I].
  - unfold append_text in H. destruct (open_els p) eqn:Eo; [discriminate|]. cbn [rmap rbind] in H. injection H as <-.
    apply (kept_append (DMark ln (L "<![CDATA[")) p last); [now apply steps_leaf|exact I|exact Logic.I].
  - unfold append_text in H. destruct (open_els p) eqn:Eo; [discriminate|]. cbn [rbind] in H.
    destruct (cdata_depth (append_node (DMark ln (L "]]>")) p)) as [|d]; [discriminate|]. injection H as <-.
    apply (kept_append (DMark ln (L "]]>")) p last); [now apply steps_leaf|exact I|exact Logic.I].
Qed.
Theorem build_steps : forall es l, build es = Ok l -> lines_fit es -> Forall steps_right l.
Proof.
  intros es l H F. unfold build in H.
  assert (G : forall es p p' last, handle_all p es = Ok p' -> kept last p -> lines_fit es ->
    (forall e es' l l', es = e :: es' -> last = Some l -> begins_on e = Some l' -> l' = l) -> exists last', kept last' p').
  { clear. induction es as [|e es IH]; intros p p' last H I F B; [exists last; now injection H as <-|]. cbn [handle_all] in H.
    destruct (handle p e) as [p1|] eqn:E; [|discriminate]. cbn [rbind] in H. eapply IH; [exact H| | |].
    - eapply handle_kept; [exact E|exact I|]. intros l l'. now apply (B e es).
    - intros a x y b l l' Es. apply (F (e :: a) x y b). now rewrite Es.
    - intros e1 es' l l' -> El Eb. now apply (F [] e e1 es' l l'). }
  destruct (handle_all _ es) as [p|] eqn:E; [|discriminate]. apply (G _ _ _ None) in E as (last' & K).
  - cbn [rmap] in H. injection H as <-. apply Forall_rev. apply K.
  - split; [|split]; cbn; auto.
  - exact F.
  - discriminate.
Qed.

(** ** Expressions in texts *)
Lemma element_texts : forall n ln tag a cs, element_in n ln tag a cs -> exists p q, text_at n = p ++ flat_map text_at cs ++ q.
Proof.
  intros n ln tag a cs E. induction E as [ln tag a cs|ln tag a cs c ln' tag' a' cs' I E (p & q & IH)].
  - exists [], []. cbn [text_at app]. now rewrite app_nil_r.
  - apply in_split in I as (u & w & ->). exists (flat_map text_at u ++ p), (q ++ flat_map text_at w). cbn [text_at].
    rewrite flat_map_app. cbn [flat_map]. rewrite IH, <- !app_assoc. reflexivity.
Qed.
Lemma text_within : forall ns n ln tag a cs lt t e, In n ns -> element_in n ln tag a cs -> In (DText lt t e) cs ->
  exists p q, flat_map text_at ns = p ++ characters_at lt t ++ q.
Proof.
  intros ns n ln tag a cs lt t e I E D. apply element_texts in E as (p & q & E). apply in_split in I as (u & w & ->). apply in_split in D as (u' & w' & ->).
  exists (flat_map text_at u ++ p ++ flat_map text_at u'), (flat_map text_at w' ++ q ++ flat_map text_at w). rewrite flat_map_app in *. cbn [flat_map text_at] in *.
  rewrite E, <- !app_assoc. reflexivity.
Qed.
Lemma on_lines_in : forall ln parts ps, on_lines ln parts ps -> forall x, In x ps ->
  exists part p q, xspells part x /\ characters_at ln (concat parts) = p ++ characters_at (piece_line x) part ++ q.
Proof.
  intros ln parts ps O. induction O as [ln|ln s ss p ps X E O IH]; intros x I; [destruct I|]. cbn [concat]. rewrite characters_app. destruct I as [<-|I].
  - exists s, [], (characters_at (ln + count_nl s) (concat ss)). split; [exact X|]. now rewrite E.
  - destruct (IH x I) as (part & u & w & X' & E'). exists part, (characters_at ln s ++ u), w. split; [exact X'|]. now rewrite E', <- app_assoc.
Qed.
