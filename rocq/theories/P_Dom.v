(** * Proofs about the document tree: parsing, merging and splitting of texts *)

From Coq Require Import Ascii String List Arith NArith ZArith Bool Lia.
From Verif Require Import PyStr PyStrLemmas M_Text S_Text P_Text2 P_Text3 M_Html5 M_Entities M_Dom S_Dom.
Import ListNotations.
Open Scope list_scope.

Section Induction.
Variable P : dnode -> Prop.
Hypothesis He : forall ln tag a cs, Forall P cs -> P (DElem ln tag a cs).
Hypothesis Ht : forall ln t e, P (DText ln t e).
Hypothesis Hm : forall ln t, P (DMark ln t).
Hypothesis Hc : forall ln t, P (DComment ln t).
Hypothesis Hp : forall ln t d, P (DPi ln t d).
Fixpoint dnode_rec' (n : dnode) : P n :=
  match n with
  | DElem ln tag a cs => He ln tag a cs ((fix go (l : list dnode) : Forall P l :=
      match l with [] => Forall_nil _ | c :: l' => Forall_cons _ (dnode_rec' c) (go l') end) cs)
  | DText ln t e => Ht ln t e
  | DMark ln t => Hm ln t
  | DComment ln t => Hc ln t
  | DPi ln t d => Hp ln t d
  end.
End Induction.

(** ** Merging *)

(** The nodes in front of which a run ends. *)
Lemma text_dec : forall n, is_text n \/ ~ is_text n.
Proof. intros []; cbn; tauto. Qed.

Lemma merge_text : forall n, is_text n -> merge n = n.
Proof. intros []; cbn; tauto. Qed.
Lemma merge_keeps : forall n, is_text (merge n) <-> is_text n.
Proof. intros []; cbn; tauto. Qed.

Lemma merge_list_run : forall run ln t e rest, Forall is_text run ->
  merge_list (Some (ln, t, e)) (run ++ rest) = merge_list (Some (ln, t ++ concat (map data_of run), e)) rest.
Proof.
  induction run as [|n run IH]; intros ln t e rest H; cbn [map concat]; [now rewrite app_nil_r|].
  inversion H as [|? ? Hn Hr]; subst. destruct n; try (now destruct Hn). cbn [app merge_list data_of].
  rewrite IH by assumption. now rewrite app_assoc.
Qed.
Lemma merge_list_flush : forall ln t e rest, no_text_first rest ->
  merge_list (Some (ln, t, e)) rest = DText ln t e :: merge_list None rest.
Proof. intros ln t e [|[] rest] H; cbn in *; try reflexivity. tauto. Qed.
Lemma merge_list_other : forall n l, ~ is_text n -> merge_list None (n :: l) = n :: merge_list None l.
Proof. intros [] l H; cbn in *; try reflexivity. tauto. Qed.

Lemma run_split : forall l, exists run rest, l = run ++ rest /\ Forall is_text run /\ no_text_first rest.
Proof.
  induction l as [|n l (run & rest & -> & H1 & H2)].
  - exists [], []. cbn. auto.
  - destruct (text_dec n) as [T|T].
    + exists (n :: run), rest. repeat split; auto.
    + exists [], (n :: run ++ rest). repeat split; auto.
Qed.

Lemma map_merge_texts : forall run, Forall is_text run -> map merge run = run.
Proof. induction 1; cbn [map]; [reflexivity|]. now rewrite merge_text, IHForall. Qed.
Lemma map_merge_first : forall l, no_text_first l -> no_text_first (map merge l).
Proof. intros [|n l]; cbn; [auto|]. now rewrite merge_keeps. Qed.

Lemma merge_list_merged : forall k l, length l <= k -> Forall (fun n => ~ is_text n -> merged n (merge n)) l ->
  merged_list l (merge_list None (map merge l)).
Proof.
  induction k as [|k IH]; intros l Hl F.
  - destruct l; [constructor|cbn in Hl; lia].
  - destruct l as [|n l]; [constructor|]. cbn in Hl. destruct (text_dec n) as [T|T].
    + destruct n; try now destruct T. cbn [map merge merge_list].
      destruct (run_split l) as (run & rest & -> & H1 & H2). rewrite map_app, map_merge_texts by assumption.
      rewrite merge_list_run by assumption. rewrite merge_list_flush by now apply map_merge_first.
      apply ml_run; try assumption. apply IH.
      * rewrite app_length in Hl. lia.
      * inversion F as [|? ? _ F']; subst. apply Forall_app in F' as [_ F']. exact F'.
    + cbn [map]. rewrite merge_list_other by now rewrite merge_keeps. inversion F as [|? ? Fn F']; subst.
      apply ml_other; [assumption|auto|]. apply IH; [lia|exact F'].
Qed.
Theorem merge_merged : forall n, ~ is_text n -> merged n (merge n).
Proof.
  apply (dnode_rec' (fun n => ~ is_text n -> merged n (merge n))); intros; cbn [merge]; try (now constructor).
  - apply mg_elem. eapply merge_list_merged; [reflexivity|assumption].
  - now destruct H.
Qed.

Scheme merged_ind2 := Induction for merged Sort Prop
  with merged_list_ind2 := Induction for merged_list Sort Prop.
Combined Scheme merged_both from merged_ind2, merged_list_ind2.

Theorem merged_unique : (forall n n', merged n n' -> n' = merge n) /\ (forall l l', merged_list l l' -> l' = merge_list None (map merge l)).
Proof.
  apply merged_both; intros; cbn [merge]; try reflexivity.
  - now rewrite H.
  - cbn [map merge merge_list]. rewrite map_app, map_merge_texts by assumption. rewrite merge_list_run by assumption.
    rewrite merge_list_flush by now apply map_merge_first. now rewrite <- H.
  - cbn [map]. rewrite merge_list_other by now rewrite merge_keeps. now rewrite <- H, <- H0.
Qed.

(** *** What merging keeps *)

Lemma flags_tail : forall n l, same_flags (n :: l) -> same_flags l.
Proof. intros n l H a ln t e ln' t' e' b E. apply (H (n :: a) ln t e ln' t' e' b). now rewrite E. Qed.
Lemma flags_run : forall run ln t e rest, Forall is_text run -> same_flags (DText ln t e :: run ++ rest) ->
  flat_map tokens run = map (T_char e) (concat (map data_of run)).
Proof.
  induction run as [|n run IH]; intros ln t e rest H F; [reflexivity|]. inversion H as [|? ? Hn Hr]; subst.
  destruct n as [| l0 t0 e0 | | |]; try now destruct Hn. cbn [flat_map tokens map data_of concat].
  assert (e = e0) as <- by (apply (F [] ln t e l0 t0 e0 (run ++ rest)); reflexivity).
  rewrite map_app. f_equal. apply (IH l0 t0 e rest Hr). now apply flags_tail in F.
Qed.
Lemma uniform_child : forall ln tag a cs c, uniform (DElem ln tag a cs) -> In c cs -> uniform c.
Proof. intros ln tag a cs c U I ln' tag' a' cs' E. apply (U ln' tag' a'). eapply ei_below; eassumption. Qed.

Theorem merged_tokens :
  (forall n n', merged n n' -> uniform n -> tokens n' = tokens n) /\
  (forall l l', merged_list l l' -> same_flags l -> Forall uniform l -> flat_map tokens l' = flat_map tokens l).
Proof.
  apply merged_both; intros; try reflexivity.
  - cbn [tokens]. rewrite H; [reflexivity| |].
    + match goal with U : uniform _ |- _ => apply (U ln tag a) end. apply ei_here.
    + apply Forall_forall. intros c Ic. eapply uniform_child; eassumption.
  - cbn [flat_map tokens]. rewrite flat_map_app, map_app.
    match goal with F : same_flags _ |- _ => rewrite (flags_run run ln t e rest) by assumption;
      assert (Fr : same_flags rest) by (clear - F; revert F; change (DText ln t e :: run ++ rest) with ((DText ln t e :: run) ++ rest);
        induction (DText ln t e :: run) as [|x u IH]; [auto|intros F; apply IH; now apply flags_tail in F]) end.
    rewrite <- app_assoc. do 2 f_equal. apply H; [exact Fr|].
    match goal with U : Forall uniform _ |- _ => apply Forall_inv_tail in U; apply Forall_app in U as [_ U]; exact U end.
  - cbn [flat_map]. rewrite H, H0; [reflexivity| | |].
    + match goal with F : same_flags _ |- _ => now apply flags_tail in F end.
    + match goal with U : Forall uniform _ |- _ => now apply Forall_inv_tail in U end.
    + match goal with U : Forall uniform _ |- _ => now apply Forall_inv in U end.
Qed.

Lemma merged_text : forall n n', merged n n' -> ~ is_text n'.
Proof. intros n n' M. inversion M; subst; cbn; tauto. Qed.

Lemma merged_first : forall l l', merged_list l l' -> no_text_first l -> no_text_first l'.
Proof.
  intros l l' M N. inversion M; subst; cbn in *; [auto|tauto|]. eapply merged_text; eassumption.
Qed.
Lemma apart_nil : apart [].
Proof. intros [|] x y b E; discriminate. Qed.
Lemma apart_cons : forall n l, (is_text n -> no_text_first l) -> apart l -> apart (n :: l).
Proof.
  intros n l Hn Hl [|z a] x y b E Tx; cbn in E.
  - injection E as <- E. subst l. now apply Hn.
  - injection E as <- E. now apply (Hl a x y b).
Qed.
Theorem merged_apart :
  (forall n n', merged n n' -> forall ln tag a cs, element_in n' ln tag a cs -> apart cs) /\
  (forall l l', merged_list l l' -> apart l' /\ forall n' ln tag a cs, In n' l' -> element_in n' ln tag a cs -> apart cs).
Proof.
  apply merged_both.
  - intros ln tag a cs cs' M [A B] ln' tag' a' c' E. inversion E; subst; [exact A|]. eapply B; eassumption.
  - intros ln t ln' tag' a' c' E. inversion E.
  - intros ln t ln' tag' a' c' E. inversion E.
  - intros ln t d ln' tag' a' c' E. inversion E.
  - split; [apply apart_nil|]. intros n' ln' tag' a' c' [].
  - intros ln t e run rest rest' Hr Hf M [A B]. split.
    + apply apart_cons; [|exact A]. intros _. eapply merged_first; eassumption.
    + intros n' ln' tag' a' c' [<-|I] E; [inversion E|]. eapply B; eassumption.
  - intros n n' l l' Hn Mn IHn Ml [A B]. split.
    + apply apart_cons; [|exact A]. intros T. now apply merged_text in Mn.
    + intros m ln' tag' a' c' [<-|I] E; [eapply IHn; eassumption|eapply B; eassumption].
Qed.

(** ** White space *)

Lemma dropwhile_split : forall (p : char -> bool) s, exists a b, s = a ++ b /\ Forall (fun c => p c = true) a /\
  stops (fun c => p c = true) b /\ dropwhile p s = b.
Proof.
  intros p s. exists (takewhile p s), (dropwhile p s). repeat split.
  - symmetry. apply takewhile_dropwhile.
  - apply P_Text2.takewhile_all.
  - apply dropwhile_stops.
Qed.
Lemma lstrip_spec : forall s, exists a b, s = a ++ b /\ Forall space a /\ stops space b /\ lstrip s = b.
Proof. intros s. apply dropwhile_split. Qed.
Lemma rstrip_spec : forall s, exists b c, s = b ++ c /\ Forall space c /\ stops space (rev b) /\ rstrip s = b.
Proof.
  intros s. unfold rstrip. destruct (dropwhile_split is_space (rev s)) as (a & b & E & H1 & H2 & ->).
  exists (rev b), (rev a). rewrite <- rev_app_distr, <- E, rev_involutive. repeat split; auto.
  - now apply Forall_rev.
  - now rewrite rev_involutive.
Qed.
Lemma lstrip_all : forall s, Forall space s -> lstrip s = [].
Proof. intros s H. unfold lstrip. induction H as [|c s Hc H IH]; [reflexivity|]. cbn. unfold space in Hc. now rewrite Hc. Qed.
Lemma stops_lstrip : forall s, stops space s -> lstrip s = s.
Proof. intros [|c s] H; [reflexivity|]. cbn in *. unfold space in H. destruct (is_space c); [now destruct H|reflexivity]. Qed.
Lemma lstrip_parts : forall a b, Forall space a -> stops space b -> lstrip (a ++ b) = b.
Proof.
  intros a b Ha Hb. unfold lstrip. rewrite dropwhile_app_all by (apply forallb_forall; rewrite <- Forall_forall; exact Ha).
  now apply stops_lstrip.
Qed.
Lemma rstrip_parts : forall b c, Forall space c -> stops space (rev b) -> rstrip (b ++ c) = b.
Proof.
  intros b c Hc Hb. unfold rstrip. rewrite rev_app_distr.
  fold (lstrip (rev c ++ rev b)). rewrite lstrip_parts; [apply rev_involutive|now apply Forall_rev|exact Hb].
Qed.
Lemma stops_mid : forall (b c : str), b <> [] -> stops space b -> stops space (b ++ c).
Proof. intros [|x b] c H1 H2; [congruence|exact H2]. Qed.
Lemma strip_parts : forall t a b c, three_parts t a b c -> strip t = b.
Proof.
  intros t a b c (-> & Ha & Hc & Ne & Sb & Se). unfold strip. rewrite lstrip_parts by (auto; now apply stops_mid). now apply rstrip_parts.
Qed.
Lemma blank_or_parts : forall t, Forall space t \/ exists a b c, three_parts t a b c.
Proof.
  intros t. destruct (lstrip_spec t) as (a & b0 & -> & Ha & Hb & _).
  destruct (rstrip_spec b0) as (b & c & -> & Hc & He & _). destruct b as [|x b].
  - left. cbn. apply Forall_app. auto.
  - right. exists a, (x :: b), c. repeat split; auto. discriminate.
Qed.
Lemma strip_blank : forall t, Forall space t -> strip t = [].
Proof. intros t H. unfold strip. now rewrite lstrip_all. Qed.
Lemma parts_not_blank : forall t a b c, three_parts t a b c -> ~ Forall space t.
Proof.
  intros t a b c (-> & _ & _ & Ne & Sb & _) F. apply Forall_app in F as [_ F]. destruct b as [|x b]; [congruence|].
  inversion F; subst. now apply Sb.
Qed.

Lemma split_parts : forall ln t e a b c, three_parts t a b c ->
  split_text ln t e = part ln a e ++ part (ln + count_nl a) b e ++ part (ln + count_nl (a ++ b)) c e.
Proof.
  intros ln t e a b c T. unfold split_text. rewrite (strip_parts t a b c T).
  pose proof T as (-> & Ha & Hc & Ne & Sb & Se). destruct b as [|x b]; [congruence|]. set (b' := x :: b) in *.
  rewrite lstrip_parts by (auto; now apply stops_mid).
  rewrite (app_length a). replace (length a + length (b' ++ c) - length (b' ++ c)) with (length a) by lia.
  rewrite firstn_app, Nat.sub_diag, firstn_all. cbn [firstn]. rewrite app_nil_r.
  destruct a as [|y a].
  - cbn [app length Nat.add]. rewrite Nat.eqb_refl. cbn [negb part app]. change (count_nl []) with 0. rewrite Nat.add_0_r.
    rewrite rstrip_parts by assumption. rewrite app_length. destruct c as [|z c].
    + rewrite !app_nil_r. cbn [length]. rewrite Nat.add_0_r, Nat.eqb_refl. reflexivity.
    + assert (E : (length b' =? length b' + length (z :: c)) = false) by (apply Nat.eqb_neq; cbn; lia). rewrite E. cbn [negb].
      replace (length b' + length (z :: c) - (length b' + length (z :: c) - length b')) with (length b') by lia.
      rewrite firstn_app, Nat.sub_diag, firstn_all, skipn_app, skipn_all, Nat.sub_diag. cbn [firstn skipn app part]. now rewrite app_nil_r.
  - assert (E : (length (b' ++ c) =? length (y :: a) + length (b' ++ c)) = false) by (apply Nat.eqb_neq; cbn; lia). rewrite E. cbn [negb].
    rewrite rstrip_parts by assumption. rewrite app_length. destruct c as [|z c].
    + rewrite !app_nil_r. cbn [length]. rewrite Nat.add_0_r, Nat.eqb_refl. reflexivity.
    + assert (E1 : (length b' =? length b' + length (z :: c)) = false) by (apply Nat.eqb_neq; cbn; lia). rewrite E1. cbn [negb].
      replace (length b' + length (z :: c) - (length b' + length (z :: c) - length b')) with (length b') by lia.
      rewrite firstn_app, Nat.sub_diag, firstn_all, skipn_app, skipn_all, Nat.sub_diag. cbn [firstn skipn app part]. rewrite app_nil_r.
      change (y :: a ++ b') with ((y :: a) ++ b'). now rewrite count_nl_app, Nat.add_assoc.
Qed.
Lemma split_blank : forall ln t e, Forall space t -> split_text ln t e = [DText ln t e].
Proof. intros ln t e H. unfold split_text. now rewrite strip_blank. Qed.

Theorem split_spec : forall ln t e ts, split_into ln t e ts <-> ts = split_text ln t e.
Proof.
  intros ln t e ts. split.
  - intros [H|a b c H]; symmetry; [now apply split_blank|now apply split_parts].
  - intros ->. destruct (blank_or_parts t) as [H|(a & b & c & H)].
    + rewrite split_blank by assumption. now apply sp_blank.
    + rewrite (split_parts ln t e a b c H). now apply sp_parts.
Qed.

Scheme spaced_ind2 := Induction for spaced Sort Prop
  with spaced_list_ind2 := Induction for spaced_list Sort Prop.
Combined Scheme spaced_both from spaced_ind2, spaced_list_ind2.

Definition extract_child (c : dnode) : list dnode :=
  match c with DText l t e => split_text l t e | _ => [extract_spaces c] end.
Lemma extract_elem : forall ln tag a cs, extract_spaces (DElem ln tag a cs) = DElem ln tag a (flat_map extract_child cs).
Proof. reflexivity. Qed.
Lemma extract_other : forall n, ~ is_text n -> extract_child n = [extract_spaces n].
Proof. intros [] H; cbn in *; try reflexivity. now destruct H. Qed.

Lemma extract_list : forall l, Forall (fun n => ~ is_text n -> spaced n (extract_spaces n)) l -> spaced_list l (flat_map extract_child l).
Proof.
  induction 1 as [|n l Hn F IH]; [constructor|]. cbn [flat_map]. destruct (text_dec n) as [T|T].
  - destruct n; try now destruct T. apply sl_text; [now apply split_spec|exact IH].
  - rewrite extract_other by assumption. apply (sl_other n _ l _ T); auto.
Qed.
Theorem extract_spaced : forall n, ~ is_text n -> spaced n (extract_spaces n).
Proof.
  apply (dnode_rec' (fun n => ~ is_text n -> spaced n (extract_spaces n))); intros; try (now constructor).
  - rewrite extract_elem. apply sd_elem. now apply extract_list.
  - now destruct H.
Qed.
Theorem spaced_unique : (forall n n', spaced n n' -> n' = extract_spaces n) /\ (forall l l', spaced_list l l' -> l' = flat_map extract_child l).
Proof.
  apply spaced_both; intros; try reflexivity.
  - now rewrite extract_elem, H.
  - cbn [flat_map extract_child]. match goal with S : split_into _ _ _ _ |- _ => apply split_spec in S; now rewrite S, H end.
  - cbn [flat_map]. rewrite extract_other by assumption. now rewrite H, H0.
Qed.

Lemma part_tokens : forall ln t e, flat_map tokens (part ln t e) = map (T_char e) t.
Proof. intros ln [|c t] e; [reflexivity|]. cbn [part flat_map tokens]. apply app_nil_r. Qed.
Lemma split_tokens : forall ln t e ts, split_into ln t e ts -> flat_map tokens ts = map (T_char e) t.
Proof.
  intros ln t e ts [H|a b c (-> & _)].
  - cbn [flat_map tokens]. apply app_nil_r.
  - rewrite !flat_map_app, !part_tokens. now rewrite !map_app.
Qed.
Theorem spaced_tokens : (forall n n', spaced n n' -> tokens n' = tokens n) /\
  (forall l l', spaced_list l l' -> flat_map tokens l' = flat_map tokens l).
Proof.
  apply spaced_both; intros; try reflexivity.
  - cbn [tokens]. now rewrite H.
  - rewrite flat_map_app. cbn [flat_map]. rewrite H. f_equal. eapply split_tokens; eassumption.
  - cbn [flat_map]. now rewrite H, H0.
Qed.

Lemma part_tidy : forall ln t e, tidy (DText ln t e) -> Forall tidy (part ln t e).
Proof. intros ln [|c t] e H; [constructor|]. now constructor. Qed.
Lemma split_tidy : forall ln t e ts, split_into ln t e ts -> Forall tidy ts.
Proof.
  intros ln t e ts [H|a b c (-> & Ha & Hc & Ne & He)].
  - constructor; [now left|constructor].
  - apply Forall_app. split; [apply part_tidy; now left|]. apply Forall_app. split; apply part_tidy; [now right|now left].
Qed.
Theorem spaced_tidy : (forall n n', spaced n n' -> forall ln tag a cs, element_in n' ln tag a cs -> Forall tidy cs) /\
  (forall l l', spaced_list l l' -> Forall tidy l' /\ forall n' ln tag a cs, In n' l' -> element_in n' ln tag a cs -> Forall tidy cs).
Proof.
  apply spaced_both.
  - intros ln tag a cs cs' M [A B] ln' tag' a' c' E. inversion E; subst; [exact A|]. eapply B; eassumption.
  - intros ln t ln' tag' a' c' E. inversion E.
  - intros ln t ln' tag' a' c' E. inversion E.
  - intros ln t d ln' tag' a' c' E. inversion E.
  - split; [constructor|]. intros n' ln' tag' a' c' [].
  - intros ln t e ts l l' S M [A B]. split.
    + apply Forall_app. split; [eapply split_tidy; eassumption|exact A].
    + intros n' ln' tag' a' c' I E. apply in_app_iff in I as [I|I]; [|eapply B; eassumption].
      assert (T : is_text n').
      { destruct S as [H|p b q H]; [destruct I as [<-|[]]; exact Logic.I|].
        repeat (apply in_app_iff in I as [I|I]); match type of I with In _ (part _ ?u _) => destruct u; [now destruct I|destruct I as [<-|[]]; exact Logic.I] end. }
      now destruct n'.
  - intros n n' l l' Hn Mn IHn Ml [A B]. split.
    + constructor; [|exact A]. inversion Mn; subst; exact Logic.I.
    + intros m ln' tag' a' c' [<-|I] E; [eapply IHn; eassumption|eapply B; eassumption].
Qed.

(** Splitting again changes nothing (so it does not matter that the loop visits the new nodes). *)
Lemma tidy_split : forall ln t e, tidy (DText ln t e) -> split_text ln t e = [DText ln t e].
Proof.
  intros ln t e [H|[H1 H2]]; [now apply split_blank|]. destruct t as [|c t]; [reflexivity|].
  rewrite (split_parts ln (c :: t) e [] (c :: t) []).
  - cbn [part app]. change (count_nl []) with 0. now rewrite Nat.add_0_r.
  - repeat split; auto; try discriminate; now rewrite app_nil_r.
Qed.

Theorem extract_idempotent : forall n, extract_spaces (extract_spaces n) = extract_spaces n.
Proof.
  apply dnode_rec'; intros; try reflexivity.
  rewrite !extract_elem. f_equal. induction H as [|n l Hn F IH]; [reflexivity|].
  cbn [flat_map]. rewrite flat_map_app, IH. f_equal. destruct (text_dec n) as [T|T].
  - destruct n as [|l0 t0 e0| | |]; try now destruct T. cbn [extract_child].
    pose proof (split_tidy l0 t0 e0 (split_text l0 t0 e0)) as Q. specialize (Q (proj2 (split_spec l0 t0 e0 _) eq_refl)).
    assert (X : Forall is_text (split_text l0 t0 e0)).
    { destruct (proj2 (split_spec l0 t0 e0 _) eq_refl) as [H|p b q H].
      - constructor; [exact I|constructor].
      - repeat (apply Forall_app; split); match goal with |- Forall _ (part _ ?u _) => destruct u; repeat constructor end. }
    induction X as [|m ms Hm X IHX]; [reflexivity|]. cbn [flat_map]. inversion Q; subst.
    destruct m; try now destruct Hm. cbn [extract_child]. rewrite tidy_split by assumption. cbn [app]. now rewrite IHX.
  - rewrite extract_other by assumption. cbn [flat_map]. rewrite app_nil_r.
    rewrite extract_other; [now rewrite Hn|]. destruct n; cbn in *; tauto.
Qed.

(** ** Stripping *)

Theorem strip_stripped : forall n, stripped n (strip_texts n).
Proof.
  apply dnode_rec'; intros; cbn [strip_texts]; try constructor.
  - induction H; cbn [map]; constructor; auto.
  - destruct (blank_or_parts t) as [H|(a & b & c & H)].
    + rewrite lstrip_all, strip_blank by assumption. cbn [length]. rewrite Nat.sub_0_r, firstn_all. now apply st_blank.
    + rewrite (strip_parts t a b c H). pose proof H as (-> & Ha & Hc & Ne & Sb & _).
      rewrite lstrip_parts by (auto; now apply stops_mid). rewrite (app_length a).
      replace (length a + length (b ++ c) - length (b ++ c)) with (length a) by lia.
      rewrite firstn_app, Nat.sub_diag, firstn_all. cbn [firstn]. rewrite app_nil_r. eapply st_text; eassumption.
Qed.
Theorem stripped_unique : forall n n', stripped n n' -> n' = strip_texts n.
Proof.
  apply (dnode_rec' (fun n => forall n', stripped n n' -> n' = strip_texts n)).
  - intros ln tag a cs F n' S. inversion S as [? ? ? ? cs' G| | | | |]; subst. cbn [strip_texts]. f_equal.
    clear S. induction G as [|x y l l' E G IH]; [reflexivity|]. inversion F; subst. cbn [map]. f_equal; auto.
  - intros ln t e n' S. inversion S as [|? ? ? H|? ? ? a b c H| | |]; subst; cbn [strip_texts].
    + rewrite lstrip_all, strip_blank by assumption. cbn [length]. now rewrite Nat.sub_0_r, firstn_all.
    + rewrite (strip_parts t a b c H). pose proof H as (-> & Ha & Hc & Ne & Sb & _).
      rewrite lstrip_parts by (auto; now apply stops_mid). rewrite (app_length a).
      replace (length a + length (b ++ c) - length (b ++ c)) with (length a) by lia.
      rewrite firstn_app, Nat.sub_diag, firstn_all. cbn [firstn]. now rewrite app_nil_r.
  - intros ln t n' S. now inversion S.
  - intros ln t n' S. now inversion S.
  - intros ln t d n' S. now inversion S.
Qed.
