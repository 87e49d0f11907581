(** * Proofs about the document tree: directives and parsing *)

From Coq Require Import Ascii String List Arith NArith ZArith Bool Lia.
From Verif Require Import PyStr PyStrLemmas M_Text S_Text M_Html5 M_Entities P_Entities M_Dom S_Dom P_Dom.
Import ListNotations.
Open Scope list_scope.

(** ** Attributes *)

Lemma seqb_neq : forall a b, a <> b -> seqb a b = false.
Proof. intros a b H. destruct (seqb a b) eqn:E; [|reflexivity]. now apply seqb_eq in E. Qed.

Lemma has_remove_same : forall k a, has_attr k (remove_attr k a) = false.
Proof.
  intros k a. induction a as [|[k' v] a IH]; [reflexivity|]. cbn [remove_attr filter fst].
  destruct (seqb k k') eqn:E; cbn [negb]; [exact IH|]. cbn [has_attr existsb fst]. now rewrite E.
Qed.
Lemma has_remove : forall k d a, k <> d -> has_attr k (remove_attr d a) = has_attr k a.
Proof.
  intros k d a Ne. induction a as [|[k' v] a IH]; [reflexivity|]. cbn [remove_attr filter fst].
  unfold has_attr in *. cbn [existsb fst]. destruct (seqb d k') eqn:E; cbn [negb].
  - apply seqb_eq in E. subst k'. assert (X : seqb k d = false) by now apply seqb_neq. rewrite X. exact IH.
  - cbn [existsb fst]. now rewrite <- IH.
Qed.
Lemma get_remove : forall k d a, k <> d -> get_attr k (remove_attr d a) = get_attr k a.
Proof.
  intros k d a Ne. induction a as [|[k' v] a IH]; [reflexivity|]. cbn [remove_attr filter fst get_attr].
  destruct (seqb d k') eqn:E; cbn [negb].
  - apply seqb_eq in E. subst k'. assert (X : seqb k d = false) by now apply seqb_neq. rewrite X. exact IH.
  - cbn [get_attr]. now rewrite <- IH.
Qed.
Lemma remove_shorter : forall d a, has_attr d a = true -> length (remove_attr d a) < length a.
Proof.
  intros d a. induction a as [|[k' v] a IH]; [discriminate|]. unfold has_attr. cbn [existsb fst remove_attr filter length].
  destruct (seqb d k'); cbn [negb orb length]; intros H.
  - clear. induction a as [|x a IH]; cbn [filter length]; [lia|]. destruct (negb _); cbn [length]; lia.
  - specialize (IH H). unfold remove_attr in IH. lia.
Qed.
Lemma has_set : forall k d v a, has_attr k (set_attr d v a) = seqb k d || has_attr k a.
Proof.
  intros k d v a. unfold has_attr. induction a as [|[k' v'] a IH]; [reflexivity|]. cbn [set_attr].
  destruct (seqb d k') eqn:E; cbn [existsb fst].
  - apply seqb_eq in E. subst k'. destruct (seqb k d); reflexivity.
  - rewrite IH. destruct (seqb k k'), (seqb k d); reflexivity.
Qed.

(** ** Directives around an element *)

Lemma directives_nodup : NoDup (map fst directives).
Proof. repeat constructor; cbv; intuition discriminate. Qed.
Lemma directive_nameb_spec : forall k, directive_nameb k = true <-> directive_name k.
Proof. intros k. unfold directive_nameb, directive_name. apply smem_In. Qed.

Lemma others_remove : forall d a, directive_name d -> others (remove_attr d a) = others a.
Proof.
  intros d a D. apply directive_nameb_spec in D. induction a as [|[k v] a IH]; [reflexivity|].
  cbn [remove_attr filter others fst]. destruct (seqb d k) eqn:E; cbn [negb].
  - apply seqb_eq in E. subst k. rewrite D. cbn [negb]. exact IH.
  - cbn [others filter fst]. destruct (directive_nameb k); cbn [negb]; [exact IH|]. f_equal. exact IH.
Qed.
Lemma others_set : forall d v a, directive_name d -> others (set_attr d v a) = others a.
Proof.
  intros d v a D. apply directive_nameb_spec in D. induction a as [|[k v'] a IH].
  - cbn [set_attr others filter fst]. now rewrite D.
  - cbn [set_attr]. destruct (seqb d k) eqn:E.
    + apply seqb_eq in E. subst k. cbn [others filter fst]. now rewrite D.
    + cbn [others filter fst]. destruct (directive_nameb k); cbn [negb]; [exact IH|]. f_equal. exact IH.
Qed.
Lemma others_none : forall a, (forall k, directive_name k -> has_attr k a = false) -> others a = a.
Proof.
  induction a as [|[k v] a IH]; intros H; [reflexivity|]. cbn [others filter fst].
  destruct (directive_nameb k) eqn:E.
  - apply directive_nameb_spec in E. specialize (H k E). unfold has_attr in H. cbn [existsb fst] in H.
    rewrite seqb_refl in H. discriminate.
  - cbn [negb]. f_equal. apply IH. intros k' D. specialize (H k' D). unfold has_attr in *. cbn [existsb fst] in H.
    now apply orb_false_iff in H.
Qed.
Lemma others_has : forall k a, directive_name k -> has_attr k (others a) = false.
Proof.
  intros k a D. induction a as [|[k' v] a IH]; [reflexivity|]. cbn [others filter fst]. destruct (directive_nameb k') eqn:E; cbn [negb]; [exact IH|].
  unfold has_attr. cbn [existsb fst]. destruct (seqb k k') eqn:F; [|exact IH].
  apply seqb_eq in F. subst k'. apply directive_nameb_spec in D. congruence.
Qed.

Definition applied_from (ds : list (str * str)) (a : list (str * str)) : list ((str * str) * str) :=
  flat_map (fun d => if has_attr (fst d) a then [(d, get_attr (fst d) a)] else []) ds.

Lemma applied_remove : forall ds d a, ~ In d (map fst ds) -> applied_from ds (remove_attr d a) = applied_from ds a.
Proof.
  induction ds as [|[k arg] ds IH]; intros d a N0; [reflexivity|]. cbn [map fst In] in N0. cbn [applied_from flat_map fst].
  rewrite has_remove, get_remove by (intros ->; tauto). f_equal. apply IH. tauto.
Qed.
Lemma applied_nothing : forall ds a, (forall d, In d ds -> has_attr (fst d) a = false) -> applied_from ds a = [].
Proof.
  induction ds as [|d ds IH]; intros a H; [reflexivity|]. cbn [applied_from flat_map]. rewrite H by now left.
  cbn [app]. apply IH. intros d' I. apply H. now right.
Qed.

Lemma find_first : forall (ds : list (str * str)) a, match List.find (fun d => has_attr (fst d) a) ds with
  | Some d => exists x y, ds = x ++ d :: y /\ (forall d', In d' x -> has_attr (fst d') a = false) /\ has_attr (fst d) a = true
  | None => forall d', In d' ds -> has_attr (fst d') a = false
  end.
Proof.
  induction ds as [|d ds IH]; intros a; cbn [List.find]; [intros d' []|]. destruct (has_attr (fst d) a) eqn:E.
  - exists [], ds. repeat split; auto. intros d' [].
  - specialize (IH a). destruct (List.find _ ds).
    + destruct IH as (x & y & -> & H1 & H2). exists (d :: x), y. repeat split; auto. intros d' [<-|I]; auto.
    + intros d' [<-|I]; auto.
Qed.

Lemma applied_app : forall x y a, applied_from (x ++ y) a = applied_from x a ++ applied_from y a.
Proof. intros. apply flat_map_app. Qed.

Lemma wrap_around : forall fuel ln tag a cs, length a <= fuel ->
  wrap fuel ln tag a cs = fold_right (around ln) (DElem ln tag (others a) cs) (applied a).
Proof.
  induction fuel as [|fuel IH]; intros ln tag a cs Hf.
  - destruct a; [reflexivity|cbn in Hf; lia].
  - cbn [wrap]. change qdirectives with directives. pose proof (find_first directives a) as F.
    destruct (List.find _ directives) as [[d arg]|].
    + destruct F as (x & y & E & H1 & H2). cbn [fst] in H2.
      assert (D : directive_name d) by (unfold directive_name; rewrite E, map_app; apply in_elt).
      pose proof (remove_shorter d a H2). rewrite IH by lia. rewrite others_remove by assumption.
      pose proof directives_nodup as ND. rewrite E, map_app in ND. cbn [map fst] in ND.
      apply NoDup_remove_2 in ND.
      assert (Ea : applied a = ((d, arg), get_attr d a) :: applied_from y a).
      { unfold applied. fold (applied_from directives a). rewrite E, applied_app, applied_nothing by assumption.
        cbn [app applied_from flat_map fst]. now rewrite H2. }
      assert (Er : applied (remove_attr d a) = applied_from y a).
      { unfold applied. fold (applied_from directives (remove_attr d a)). rewrite E, applied_app, applied_nothing.
        - cbn [app]. change (applied_from ((d, arg) :: y) (remove_attr d a)) with
            ((if has_attr d (remove_attr d a) then [((d, arg), get_attr d (remove_attr d a))] else []) ++ applied_from y (remove_attr d a)).
          rewrite has_remove_same. cbn [app]. apply applied_remove. intros I. apply ND. apply in_or_app. now right.
        - intros [k' arg'] I. cbn [fst]. rewrite has_remove; [exact (H1 _ I)|]. intros ->. apply ND. apply in_or_app. left.
          change d with (fst (d, arg')). now apply in_map. }
      rewrite Ea, Er. reflexivity.
    + assert (Z : forall k, directive_name k -> has_attr k a = false).
      { intros k K. apply in_map_iff in K as (d & <- & I). now apply F. }
      rewrite others_none by assumption. unfold applied. fold (applied_from directives a). now rewrite applied_nothing.
Qed.

Lemma qdirective_spec : forall d arg, In (d, arg) directives -> qdirective d = Some arg.
Proof. intros d arg I. cbn in I. repeat (destruct I as [I|I]; [injection I as <- <-; reflexivity|]). destruct I. Qed.
Lemma qdirective_none : forall tag, ~ directive_name tag -> qdirective tag = None.
Proof.
  intros tag H. unfold qdirective. change qdirectives with directives. unfold directive_name in H.
  induction directives as [|[k v] ds IH]; [reflexivity|]. cbn [List.find fst]. cbn [map fst In] in H.
  destruct (seqb tag k) eqn:E; [apply seqb_eq in E; subst; tauto|]. apply IH. tauto.
Qed.
Lemma directive_dec : forall tag, ~ directive_name tag \/ exists arg, In (tag, arg) directives.
Proof.
  intros tag. destruct (directive_nameb tag) eqn:E.
  - right. apply directive_nameb_spec in E. apply in_map_iff in E as ([k arg] & <- & I). now exists arg.
  - left. intros D. apply directive_nameb_spec in D. congruence.
Qed.
Lemma rename_plain : forall tag a, ~ directive_name tag -> rename tag a = (tag, a).
Proof. intros tag a H. unfold rename. now rewrite qdirective_none. Qed.
Lemma rename_directive : forall d arg a, In (d, arg) directives -> rename d a = (L "py:nop", set_attr d (get_attr arg a) a).
Proof. intros d arg a H. unfold rename. now rewrite (qdirective_spec d arg H). Qed.
Lemma extends_name : directive_name (L "py:extends").
Proof. unfold directive_name. cbn. tauto. Qed.
Lemma nop_not_directive : ~ directive_name (L "py:nop").
Proof. intros H. apply directive_nameb_spec in H. discriminate. Qed.

Lemma expand_plain : forall ln tag a cs, ~ directive_name tag -> tag = L "py:nop" \/ has_attr (L "py:extends") a = false ->
  expand_elem ln tag a cs = fold_right (around ln) (DElem ln tag (others a) cs) (applied a).
Proof.
  intros ln tag a cs H1 H2. unfold expand_elem. rewrite rename_plain by assumption.
  assert (E : negb (seqb tag py_nop) && has_attr py_extends a = false).
  { destruct H2 as [-> | H2]; [reflexivity|]. change py_extends with (L "py:extends"). rewrite H2. apply andb_false_r. }
  rewrite E. now apply wrap_around.
Qed.
Lemma expand_extends : forall ln tag a cs, ~ directive_name tag -> tag <> L "py:nop" -> has_attr (L "py:extends") a = true ->
  expand_elem ln tag a cs =
      (fold_right (around ln)
         (DElem ln tag (others a)
            (DElem ln (L "py:extends") [(L "href", get_attr (L "py:extends") a)]
               [DElem ln (L "py:nop") [(L "href", get_attr (L "py:extends") a)] []] :: cs))
         (applied (remove_attr (L "py:extends") a))).
Proof.
  intros ln tag a cs H1 H2 H3. unfold expand_elem. rewrite rename_plain by assumption.
  assert (E : seqb tag py_nop = false) by now apply seqb_neq. rewrite E. cbn [negb andb].
  change (has_attr py_extends a) with (has_attr (L "py:extends") a). rewrite H3.
  rewrite (rename_directive py_extends (L "href")) by (cbn; tauto).
  change py_extends with (L "py:extends"). pose proof (remove_shorter _ _ H3). rewrite !wrap_around by lia.
  rewrite others_remove by apply extends_name. reflexivity.
Qed.
Lemma expand_directive : forall ln d arg a cs, In (d, arg) directives ->
  expand_elem ln d a cs = fold_right (around ln) (DElem ln (L "py:nop") (others a) cs) (applied (set_attr d (get_attr arg a) a)).
Proof.
  intros ln d arg a cs H. unfold expand_elem. rewrite (rename_directive d arg) by assumption.
  change (negb (seqb (L "py:nop") py_nop)) with false. cbn [andb]. rewrite wrap_around by reflexivity.
  rewrite others_set; [reflexivity|]. unfold directive_name. change d with (fst (d, arg)). now apply in_map.
Qed.

Lemma get_set : forall k d v a, get_attr k (set_attr d v a) = get_attr k ((d, v) :: a).
Proof.
  intros k d v a. induction a as [|[k' v'] a IH]; [reflexivity|]. cbn [set_attr]. destruct (seqb d k') eqn:E.
  - apply seqb_eq in E. subst k'. cbn [get_attr]. destruct (seqb k d); reflexivity.
  - cbn [get_attr] in *. rewrite IH. destruct (seqb k k') eqn:K; [|reflexivity].
    destruct (seqb k d) eqn:K'; [|reflexivity]. apply seqb_eq in K, K'. subst. rewrite (proj2 (seqb_eq _ _) eq_refl) in E. discriminate.
Qed.
Lemma applied_set : forall d v a, applied (set_attr d v a) = applied ((d, v) :: a).
Proof.
  intros d v a. unfold applied. apply flat_map_ext. intros k. rewrite has_set, get_set. reflexivity.
Qed.

Theorem expand_expands : forall n, expands n (expand n).
Proof.
  apply dnode_rec'; intros; try constructor. cbn [expand].
  assert (F : Forall2 expands cs (map expand cs)) by (induction H; cbn [map]; constructor; auto).
  destruct (directive_dec tag) as [D|[arg D]].
  - destruct (list_eq_dec N.eq_dec tag (L "py:nop")) as [E|E]; [|destruct (has_attr (L "py:extends") a) eqn:X].
    + rewrite expand_plain by auto. apply ex_plain; auto.
    + rewrite expand_extends by auto. apply ex_extends; auto.
    + rewrite expand_plain by auto. apply ex_plain; auto.
  - rewrite (expand_directive ln tag arg) by assumption. rewrite applied_set. now apply ex_directive.
Qed.
Theorem expands_unique : forall n n', expands n n' -> n' = expand n.
Proof.
  apply (dnode_rec' (fun n => forall n', expands n n' -> n' = expand n)); intros; try (now inversion H).
  assert (G : forall cs', Forall2 expands cs cs' -> cs' = map expand cs).
  { intros cs' F. clear H0. induction F as [|x y l l' E F IH]; [reflexivity|]. inversion H; subst. cbn [map]. f_equal; auto. }
  cbn [expand]. inversion H0; subst.
  - rewrite (G cs') by assumption. now rewrite expand_plain.
  - rewrite (G cs') by assumption. now rewrite expand_extends.
  - rewrite (G cs') by assumption. now rewrite (expand_directive ln tag arg), applied_set.
Qed.

(** *** What is left afterwards *)

Lemma around_elements : forall ln ds n ln' tag a cs,
  (forall d, In d ds -> In (fst d) directives) ->
  element_in (fold_right (around ln) n ds) ln' tag a cs ->
  element_in n ln' tag a cs \/
  (exists d v inner, In (d, v) ds /\ tag = fst d /\ cs = [inner] /\ ln' = ln /\ a = match snd d with [] => [] | arg => [(arg, v)] end).
Proof.
  intros ln ds n ln' tag a cs. induction ds as [|[[name arg] v] ds IH]; intros H E; [now left|].
  cbn [fold_right around] in E. inversion E; subst.
  - right. exists (tag, arg), v, (fold_right (around ln') n ds). repeat split; try now left. cbn [snd]. destruct arg; reflexivity.
  - match goal with I : In _ [_] |- _ => destruct I as [<-|[]] end. destruct IH as [G|(d & v' & inner & I & G)].
    + intros d I. apply H. now right.
    + assumption.
    + now left.
    + right. exists d, v', inner. split; [now right|exact G].
Qed.
Lemma applied_in : forall a d v, In (d, v) (applied a) -> In d directives.
Proof.
  intros a d v I. unfold applied in I. apply in_flat_map in I as (d' & I & J).
  destruct (has_attr (fst d') a); [|destruct J]. destruct J as [J|[]]. injection J as <- _. exact I.
Qed.

Lemma argument_plain : forall d k a, In d directives -> only_argument d a -> directive_name k -> has_attr k a = false.
Proof.
  intros d k a I O K. unfold only_argument in O. destruct (snd d) as [|c arg] eqn:Ed; [now subst|]. destruct O as [v ->].
  unfold has_attr. cbn [existsb fst]. rewrite orb_false_r. apply seqb_neq. intros ->.
  assert (J : In (c :: arg) (map snd directives)) by (rewrite <- Ed; now apply in_map).
  apply directive_nameb_spec in K. cbn in J. repeat (destruct J as [J|J]; [rewrite <- J in K; discriminate|]). destruct J.
Qed.

Lemma well_around : forall ln ds n, (forall d, In d ds -> In (fst d) directives) -> well_placed n -> well_placed (fold_right (around ln) n ds).
Proof.
  intros ln ds n H W ln' tag a cs E. apply around_elements in E; [|assumption].
  destruct E as [E|(d & v & inner & I & -> & -> & _ & ->)]; [now apply W in E|]. apply H in I. cbn [fst] in I.
  assert (O : only_argument d (match snd d with [] => [] | arg => [(arg, v)] end)).
  { unfold only_argument. destruct (snd d); [reflexivity|now exists v]. }
  split.
  - intros k K. eapply argument_plain; eassumption.
  - intros [k arg'] I' E'. cbn [fst] in E'. split; [|now exists inner].
    pose proof (qdirective_spec _ _ I') as Q. destruct d as [k0 arg0]. cbn [fst] in E'. subst k0.
    rewrite (qdirective_spec _ _ I) in Q. injection Q as ->. exact O.
Qed.
Lemma well_elem : forall ln tag a cs, ~ directive_name tag -> Forall well_placed cs -> well_placed (DElem ln tag (others a) cs).
Proof.
  intros ln tag a cs T F ln' tag' a' cs' E. inversion E; subst.
  - split; [intros k K; now apply others_has|]. intros d I ->. destruct T. now apply in_map.
  - rewrite Forall_forall in F. eapply F; eassumption.
Qed.
Lemma applied_dirs : forall a d, In d (applied a) -> In (fst d) directives.
Proof. intros a [d v] I. now apply applied_in in I. Qed.

Theorem expands_well_placed : forall n n', expands n n' -> well_placed n'.
Proof.
  apply (dnode_rec' (fun n => forall n', expands n n' -> well_placed n')); intros;
    try (inversion H; subst; intros ln' tag' a' cs' E; now inversion E).
  assert (G : forall cs', Forall2 expands cs cs' -> Forall well_placed cs').
  { intros cs' F. clear H0. induction F as [|x y l l' E F IH]; constructor; inversion H; subst; auto. }
  inversion H0; subst; (apply well_around; [apply applied_dirs|]).
  - apply well_elem; auto.
  - apply well_elem; [assumption|]. constructor; [|auto].
    intros l2 t2 a2 c2 E. inversion E; subst.
    + split.
      * intros k K. apply (argument_plain (L "py:extends", L "href")); [cbn; tauto|now eexists|exact K].
      * intros d I Ed. split; [|now eexists]. destruct d as [k arg]. cbn [fst] in Ed. subst k.
        apply qdirective_spec in I. vm_compute in I. injection I as <-. now eexists.
    + match goal with I : In _ [_] |- _ => destruct I as [<-|[]] end.
      match goal with E : element_in (DElem _ _ _ []) _ _ _ _ |- _ => inversion E; subst end; [|now match goal with I : In _ [] |- _ => destruct I end].
      split.
      * intros k K. apply (argument_plain (L "py:extends", L "href")); [cbn; tauto|now eexists|exact K].
      * intros d I Ed. destruct nop_not_directive. change (L "py:nop") with [112; 121; 58; 110; 111; 112]%N. rewrite Ed. now apply in_map.
  - apply well_elem; [apply nop_not_directive|auto].
Qed.

(** *** What is kept *)

Lemma bare_around : forall ln ds n, (forall d, In d ds -> In (fst d) directives) -> bare (fold_right (around ln) n ds) = bare n.
Proof.
  intros ln ds n. induction ds as [|[[name arg] v] ds IH]; intros H; [reflexivity|]. cbn [fold_right around bare].
  assert (D : directive_nameb name = true).
  { apply directive_nameb_spec. specialize (H ((name, arg), v) (or_introl eq_refl)). change name with (fst (name, arg)). now apply in_map. }
  rewrite D. cbn [orb flat_map]. rewrite app_nil_r. apply IH. intros d I. apply H. now right.
Qed.
Lemma others_others : forall a, others (others a) = others a.
Proof. intros a. apply others_none. intros k K. now apply others_has. Qed.
Lemma directive_nameb_false : forall k, ~ directive_name k -> directive_nameb k = false.
Proof. intros k H. destruct (directive_nameb k) eqn:E; [|reflexivity]. now apply directive_nameb_spec in E. Qed.

Theorem expands_bare : forall n n', expands n n' -> bare n' = bare n.
Proof.
  apply (dnode_rec' (fun n => forall n', expands n n' -> bare n' = bare n)); intros; try (now inversion H).
  assert (G : forall cs', Forall2 expands cs cs' -> flat_map bare cs' = flat_map bare cs).
  { intros cs' F. clear H0. induction F as [|x y l l' E F IH]; [reflexivity|]. inversion H; subst. cbn [flat_map]. f_equal; auto. }
  inversion H0; subst; (rewrite bare_around by apply applied_dirs); cbn [bare].
  - rewrite directive_nameb_false, others_others, G by assumption. reflexivity.
  - rewrite directive_nameb_false, others_others by assumption. cbn [flat_map].
    assert (Z : bare (DElem ln (L "py:extends") [(L "href", get_attr (L "py:extends") a)] [DElem ln (L "py:nop") [(L "href", get_attr (L "py:extends") a)] []]) = []) by reflexivity.
    rewrite Z, G by assumption. reflexivity.
  - change (directive_nameb (L "py:nop") || seqb (L "py:nop") (L "py:nop")) with true. cbv iota. rewrite G by assumption.
    assert (D : directive_nameb tag = true) by (apply directive_nameb_spec; change tag with (fst (tag, arg)); now apply in_map).
    rewrite D. reflexivity.
Qed.

(** *** The two forms of a directive *)

Lemma applied_argument : forall d v, In d directives -> (snd d = [] -> v = []) ->
  applied (set_attr (fst d) (get_attr (snd d) (argument d v)) (argument d v)) = [(d, v)].
Proof.
  intros [d arg] v I Hv. cbn [fst snd argument]. cbn in I.
  repeat (destruct I as [I|I]; [injection I as <- <-; try reflexivity; cbn in Hv; rewrite Hv by reflexivity; reflexivity|]). destruct I.
Qed.

Theorem forms_agree : forall d v x y ln tag a cs,
  directives = x ++ d :: y -> fst d <> L "py:extends" -> (snd d = [] -> v = []) -> ~ directive_name tag ->
  (forall d', In d' (x ++ [d]) -> has_attr (fst d') a = false) ->
  dissolve (expand (DElem ln (fst d) (argument d v) [DElem ln tag a cs])) =
  dissolve (expand (DElem ln tag ((fst d, v) :: a) cs)).
Proof.
  intros d v x y ln tag a cs Ed Nd Hv T Ha.
  assert (I : In d directives) by (rewrite Ed; apply in_elt).
  assert (D : directive_name (fst d)) by now apply in_map.
  assert (Hd : has_attr (fst d) a = false) by (apply Ha; apply in_elt).
  change (expand (DElem ln (fst d) (argument d v) [DElem ln tag a cs])) with
    (expand_elem ln (fst d) (argument d v) [expand_elem ln tag a (map expand cs)]).
  change (expand (DElem ln tag ((fst d, v) :: a) cs)) with (expand_elem ln tag ((fst d, v) :: a) (map expand cs)).
  rewrite (expand_directive ln (fst d) (snd d)) by (rewrite <- surjective_pairing; exact I).
  rewrite applied_argument by assumption. cbn [fold_right].
  assert (Ap : forall b, (forall d', In d' (x ++ [d]) -> has_attr (fst d') b = false) -> applied ((fst d, v) :: b) = (d, v) :: applied b).
  { intros b Hb. unfold applied. fold (applied_from directives ((fst d, v) :: b)) (applied_from directives b).
    pose proof directives_nodup as ND. rewrite Ed, map_app in ND. cbn [map] in ND. apply NoDup_remove_2 in ND.
    assert (Sk : forall l, (forall d', In d' l -> fst d' <> fst d) -> applied_from l ((fst d, v) :: b) = applied_from l b).
    { induction l as [|d' l IH]; intros Hl; [reflexivity|]. cbn [applied_from flat_map]. unfold has_attr at 1. cbn [existsb fst get_attr].
      assert (X : seqb (fst d') (fst d) = false) by (apply seqb_neq; apply Hl; now left). rewrite X. cbn [orb].
      f_equal. apply IH. intros d2 I2. apply Hl. now right. }
    rewrite Ed. rewrite !applied_app. rewrite (applied_nothing x b) by (intros d' I'; apply Hb; apply in_or_app; now left).
    rewrite Sk, (applied_nothing x b).
    - cbn [app]. change (applied_from (d :: y) b) with ((if has_attr (fst d) b then [(d, get_attr (fst d) b)] else []) ++ applied_from y b).
      rewrite Hb by apply in_elt. cbn [app].
      change (applied_from (d :: y) ((fst d, v) :: b)) with
        ((if has_attr (fst d) ((fst d, v) :: b) then [(d, get_attr (fst d) ((fst d, v) :: b))] else []) ++ applied_from y ((fst d, v) :: b)).
      unfold has_attr at 1. cbn [existsb fst get_attr]. rewrite seqb_refl. cbn [orb app]. f_equal. apply Sk.
      intros d' I' E. apply ND. apply in_or_app. right. rewrite <- E. now apply in_map.
    - intros d' I'. apply Hb. apply in_or_app. now left.
    - intros d' I' E. apply ND. apply in_or_app. left. rewrite <- E. now apply in_map. }
  assert (Dis : forall n, dissolve (around ln (d, v) (DElem ln (L "py:nop") (others (argument d v)) [n])) = dissolve (around ln (d, v) n)).
  { intros n. assert (En : forall b, dissolve (DElem ln (L "py:nop") b [n]) = dissolve n) by (intros b; apply app_nil_r).
    destruct d as [name arg]. cbn [around]. generalize (others (argument (name, arg) v)). intros b.
    change (dissolve (DElem ln name ?z [?m])) with (if seqb name (L "py:nop") then dissolve m ++ [] else [DElem ln name z (dissolve m ++ [])]).
    now rewrite En. }
  rewrite Dis. f_equal.
  destruct (list_eq_dec N.eq_dec tag (L "py:nop")) as [En|En]; [|destruct (has_attr (L "py:extends") a) eqn:X].
  - rewrite !expand_plain by auto. rewrite Ap by assumption. cbn [fold_right]. f_equal. f_equal.
    cbn [others filter fst]. apply directive_nameb_spec in D. rewrite D. reflexivity.
  - rewrite !expand_extends; auto.
    + assert (R : remove_attr (L "py:extends") ((fst d, v) :: a) = (fst d, v) :: remove_attr (L "py:extends") a).
      { cbn [remove_attr filter fst]. assert (Z : seqb (L "py:extends") (fst d) = false) by (apply seqb_neq; congruence). rewrite Z. reflexivity. }
      rewrite R, Ap.
      * cbn [fold_right get_attr]. assert (Z : seqb (L "py:extends") (fst d) = false) by (apply seqb_neq; congruence). rewrite Z.
        f_equal. f_equal. cbn [others filter fst]. apply directive_nameb_spec in D. rewrite D. reflexivity.
      * intros d' I'. destruct (list_eq_dec N.eq_dec (fst d') (L "py:extends")) as [-> |Ne]; [apply has_remove_same|].
        rewrite has_remove by assumption. now apply Ha.
    + unfold has_attr in *. cbn [existsb fst]. rewrite X. apply orb_true_r.
  - rewrite !expand_plain; auto.
    + rewrite Ap by assumption. cbn [fold_right]. f_equal. f_equal. cbn [others filter fst]. apply directive_nameb_spec in D. rewrite D. reflexivity.
    + right. unfold has_attr in *. cbn [existsb fst]. rewrite X. assert (Z : seqb (L "py:extends") (fst d) = false) by (apply seqb_neq; congruence). now rewrite Z.
Qed.

(** ** Parsing *)

Definition append_all (l : list dnode) (p : pstate) : pstate := fold_left (fun p n => append_node n p) l p.

Lemma append_depth : forall n p, cdata_depth (append_node n p) = cdata_depth p.
Proof. intros n [[|[[[]]]] ? ?]; reflexivity. Qed.
Lemma append_open : forall n p, open_els p <> [] -> open_els (append_node n p) <> [].
Proof. intros n [[|[[[]]]] ? ?]; cbn; congruence. Qed.
Lemma append_text_ok : forall n p, open_els p <> [] -> append_text n p = Ok (append_node n p).
Proof. intros n [[|e els] ? ?] H; [now destruct H|reflexivity]. Qed.
Lemma append_all_els : forall l ln tag a cs els docs k,
  append_all l (PState ((ln, tag, a, cs) :: els) docs k) = PState ((ln, tag, a, rev l ++ cs) :: els) docs k.
Proof.
  induction l as [|n l IH]; intros; [reflexivity|]. cbn [append_all fold_left append_node open_els doc_nodes cdata_depth].
  unfold append_all in IH. rewrite IH. cbn [rev]. now rewrite <- app_assoc.
Qed.
Lemma append_all_docs : forall l docs k, append_all l (PState [] docs k) = PState [] (rev l ++ docs) k.
Proof.
  induction l as [|n l IH]; intros; [reflexivity|]. cbn [append_all fold_left append_node open_els doc_nodes cdata_depth].
  unfold append_all in IH. rewrite IH. cbn [rev]. now rewrite <- app_assoc.
Qed.

Definition with_depth (k : nat) (p : pstate) : pstate := PState (open_els p) (doc_nodes p) k.
Lemma with_depth_append : forall k n p, with_depth k (append_node n p) = append_node n (with_depth k p).
Proof. intros k n [[|[[[]]]] ? ?]; reflexivity. Qed.
Lemma with_depth_same : forall p, cdata_depth p = 0 -> with_depth 0 p = p.
Proof. intros [? ? ?]; cbn; now intros ->. Qed.

Lemma handle_cdata_texts : forall texts p es, open_els p <> [] -> cdata_depth p = 1 ->
  handle_all p (map (fun x => EChars (fst x) (snd x)) texts ++ es) =
  handle_all (append_all (map (fun x => DText (fst x) (snd x) false) texts) p) es.
Proof.
  induction texts as [|[ln t] texts IH]; intros p es Ho Hd; [reflexivity|]. cbn [map app handle_all fst snd append_all fold_left].
  unfold handle. rewrite Hd. cbn [negb Nat.eqb]. unfold characters. cbn [negb]. rewrite append_text_ok by assumption. cbn [rbind].
  apply IH; [now apply append_open|now rewrite append_depth].
Qed.
Lemma append_all_app : forall x y p, append_all (x ++ y) p = append_all y (append_all x p).
Proof. intros. unfold append_all. apply fold_left_app. Qed.
Lemma append_all_depth : forall l p, cdata_depth (append_all l p) = cdata_depth p.
Proof. induction l; intros; [reflexivity|]. cbn [append_all fold_left]. unfold append_all in IHl. rewrite IHl. apply append_depth. Qed.
Lemma append_all_open : forall l p, open_els p <> [] -> open_els (append_all l p) <> [].
Proof. induction l; intros; [assumption|]. cbn [append_all fold_left]. apply IHl. now apply append_open. Qed.
Lemma with_depth_append_all : forall k l p, with_depth k (append_all l p) = append_all l (with_depth k p).
Proof. induction l; intros; [reflexivity|]. cbn [append_all fold_left]. unfold append_all in IHl. rewrite IHl. now rewrite with_depth_append. Qed.

Lemma handle_reported : forall l es, reported l es -> forall p es', cdata_depth p = 0 -> open_els p <> [] \/ Forall outer l ->
  handle_all p (es ++ es') = handle_all (append_all l p) es'.
Proof.
  induction 1 as [|ln ln' tag a cs es l es0 R1 IH1 R2 IH2|ln t l es R IH|ln name v l es S R IH|ln ln' texts l es R IH|ln t l es R IH|ln t d l es R IH];
    intros p es' Hd Ho.
  - reflexivity.
  - cbn [app handle_all handle]. cbn [rbind]. rewrite <- app_assoc. cbn [app].
    rewrite IH1 by (cbn; auto; left; discriminate). rewrite append_all_els. cbn [handle_all handle open_els]. rewrite seqb_refl. cbn [rbind doc_nodes cdata_depth].
    rewrite app_nil_r, rev_involutive.
    assert (E : PState (open_els p) (doc_nodes p) (cdata_depth p) = p) by now destruct p. rewrite E.
    rewrite IH2; [reflexivity|now rewrite append_depth|]. destruct Ho as [Ho|Ho]; [left; now apply append_open|right; now inversion Ho].
  - destruct Ho as [Ho|Ho]; [|inversion Ho as [|? ? X]; now destruct X]. cbn [app handle_all handle]. rewrite Hd. cbn [negb Nat.eqb].
    unfold characters. cbn [negb]. rewrite append_text_ok by assumption. cbn [rbind]. rewrite <- sax_escape_eq.
    apply IH; [now rewrite append_depth|left; now apply append_open].
  - destruct Ho as [Ho|Ho]; [|inversion Ho as [|? ? X]; now destruct X]. cbn [app handle_all handle]. rewrite Hd. cbn [negb Nat.eqb].
    rewrite (proj2 (skipped_any false name v S)). cbn [rbind characters fst snd negb]. rewrite append_text_ok by assumption. cbn [rbind].
    rewrite <- sax_escape_eq. apply IH; [now rewrite append_depth|left; now apply append_open].
  - destruct Ho as [Ho|Ho]; [|inversion Ho as [|? ? X]; now destruct X]. cbn [app handle_all handle]. rewrite append_text_ok by assumption. cbn [rmap rbind].
    rewrite append_depth, Hd. rewrite <- app_assoc.
    change (PState (open_els (append_node (DMark ln (L "<![CDATA[")) p)) (doc_nodes (append_node (DMark ln (L "<![CDATA[")) p)) 1)
      with (with_depth 1 (append_node (DMark ln (L "<![CDATA[")) p)).
    set (q := with_depth 1 (append_node (DMark ln (L "<![CDATA[")) p)).
    assert (Hq : open_els q <> []) by (unfold q; cbn [with_depth open_els]; now apply append_open).
    rewrite handle_cdata_texts by (auto; reflexivity). set (texts' := map (fun x => DText (fst x) (snd x) false) texts).
    cbn [app handle_all handle]. rewrite append_text_ok by now apply append_all_open. cbn [rbind]. rewrite append_depth, append_all_depth.
    change (cdata_depth q) with 1. cbn [rbind].
    assert (E : PState (open_els (append_node (DMark ln' (L "]]>")) (append_all texts' q))) (doc_nodes (append_node (DMark ln' (L "]]>")) (append_all texts' q))) 0
       = append_node (DMark ln' (L "]]>")) (append_all texts' (append_node (DMark ln (L "<![CDATA[")) p))).
    { change (PState (open_els (append_node (DMark ln' (L "]]>")) (append_all texts' q))) (doc_nodes (append_node (DMark ln' (L "]]>")) (append_all texts' q))) 0)
       with (with_depth 0 (append_node (DMark ln' (L "]]>")) (append_all texts' q))).
      rewrite with_depth_append, with_depth_append_all. f_equal. f_equal. unfold q.
      rewrite <- (with_depth_same (append_node (DMark ln (L "<![CDATA[")) p)) at 2 by (rewrite append_depth; exact Hd). reflexivity. }
    rewrite E. rewrite IH.
    + cbn [append_all fold_left]. fold (append_all (texts' ++ DMark ln' (L "]]>") :: l) (append_node (DMark ln (L "<![CDATA[")) p)).
      rewrite append_all_app. reflexivity.
    + now rewrite append_depth, append_all_depth, append_depth.
    + left. apply append_open, append_all_open, append_open. exact Ho.
  - cbn [app handle_all handle rbind]. apply IH; [now rewrite append_depth|]. destruct Ho as [Ho|Ho]; [left; now apply append_open|right; now inversion Ho].
  - cbn [app handle_all handle rbind]. apply IH; [now rewrite append_depth|]. destruct Ho as [Ho|Ho]; [left; now apply append_open|right; now inversion Ho].
Qed.

Theorem build_reported : forall l es, reported l es -> Forall outer l -> build es = Ok l.
Proof.
  intros l es R O. unfold build. rewrite <- (app_nil_r es). rewrite (handle_reported l es R) by (cbn; auto). cbn [handle_all rmap].
  rewrite append_all_docs, app_nil_r. cbn [doc_nodes]. now rewrite rev_involutive.
Qed.

(** *** Texts that follow each other agree on their flags *)

Definition head_flag (k : nat) (cs : list dnode) : Prop :=
  match cs with DText _ _ e :: _ => e = Nat.eqb k 0 | _ => True end.
Definition good (cs : list dnode) : Prop := same_flags (rev cs) /\ Forall uniform cs.
Definition invariant (p : pstate) : Prop :=
  Forall (fun x => good (snd x)) (open_els p) /\ Forall uniform (doc_nodes p) /\
  match open_els p with (_, cs) :: _ => head_flag (cdata_depth p) cs | [] => True end.

Lemma same_flags_snoc : forall l n, same_flags l ->
  match n, rev l with DText _ _ e, DText _ _ e' :: _ => e' = e | _, _ => True end -> same_flags (l ++ [n]).
Proof.
  intros l n F H a ln t e ln' t' e' b E. destruct (rev b) as [|z rb] eqn:Eb.
  - assert (b = []) as -> by (apply (f_equal (@rev _)) in Eb; now rewrite rev_involutive in Eb).
    change (DText ln t e :: DText ln' t' e' :: []) with ([DText ln t e] ++ [DText ln' t' e']) in E. rewrite app_assoc in E.
    apply app_inj_tail in E as [-> ->]. rewrite rev_app_distr in H. exact H.
  - assert (b = rev rb ++ [z]) as -> by (apply (f_equal (@rev _)) in Eb; now rewrite rev_involutive in Eb).
    change (DText ln t e :: DText ln' t' e' :: rev rb ++ [z]) with ((DText ln t e :: DText ln' t' e' :: rev rb) ++ [z]) in E. rewrite app_assoc in E.
    apply app_inj_tail in E as [-> _]. apply (F a ln t e ln' t' e' (rev rb) eq_refl).
Qed.

Lemma uniform_leaf : forall n, (forall ln tag a cs, ~ element_in n ln tag a cs) -> uniform n.
Proof. intros n H ln tag a cs E. now apply H in E. Qed.
Lemma uniform_text : forall ln t e, uniform (DText ln t e).
Proof. intros. apply uniform_leaf. intros ? ? ? ? E. inversion E. Qed.
Lemma uniform_elem : forall ln tag a cs, same_flags cs -> Forall uniform cs -> uniform (DElem ln tag a cs).
Proof.
  intros ln tag a cs F U ln' tag' a' cs' E. inversion E; subst; [exact F|]. rewrite Forall_forall in U. eapply U; eassumption.
Qed.

Lemma invariant_append : forall n p, uniform n -> invariant p ->
  (match n with DText _ _ e => open_els p <> [] -> e = Nat.eqb (cdata_depth p) 0 | _ => True end) ->
  invariant (append_node n p) /\ (match n with DText _ _ _ => True | _ => forall k, invariant (with_depth k (append_node n p)) end).
Proof.
  intros n [[|[[[ln tag] a] cs] els] docs k0] U (G & Un & Hf) Hn.
  - cbn [append_node open_els doc_nodes cdata_depth] in *. assert (X : forall k, invariant (PState [] (n :: docs) k)) by (intros k; split; [|split]; cbn; auto).
    split; [apply X|]. destruct n; auto; intros k; apply X.
  - cbn [append_node open_els doc_nodes cdata_depth] in *. inversion G as [|? ? [G1 G2] G3]; subst. cbn [snd] in G1, G2.
    assert (Gn : good (n :: cs)).
    { split; [|now constructor]. cbn [rev]. apply same_flags_snoc; [exact G1|]. rewrite rev_involutive.
      destruct n; auto. destruct cs as [|[] cs]; auto. cbn [head_flag] in Hf. rewrite Hf. symmetry. apply Hn. discriminate. }
    split.
    + split; [|split]; cbn; auto. destruct n; cbn; auto. apply Hn. discriminate.
    + destruct n; auto; intros k; (split; [|split]); cbn; auto.
Qed.

Lemma uniform_others : forall n, match n with DElem _ _ _ _ => False | _ => True end -> uniform n.
Proof. intros n H. apply uniform_leaf. intros ? ? ? ? E. inversion E; subst; exact H. Qed.

Lemma handle_invariant : forall e p p', handle p e = Ok p' -> invariant p -> invariant p'.
Proof.
  intros e p p' H I. destruct e; cbn [handle] in H.
  - injection H as <-. destruct I as (G & Un & Hf). split; [|split]; cbn; auto. constructor; [|exact G]. split; [|constructor].
    intros [|? a0] ? ? ? ? ? ? ? E; discriminate.
  - destruct (open_els p) as [|[[[ln' tag] a] cs] els] eqn:Eo; [discriminate|]. destruct (seqb name tag); [|discriminate]. injection H as <-.
    destruct I as (G & Un & Hf). rewrite Eo in G. inversion G as [|? ? [G1 G2] G3]; subst. cbn [snd] in G1, G2.
    assert (Ue : uniform (DElem ln' tag a (rev cs))) by (apply uniform_elem; [exact G1|now apply Forall_rev]).
    destruct els as [|[[[ln2 tag2] a2] cs2] els]; cbn [append_node open_els doc_nodes cdata_depth].
    + split; [|split]; cbn; auto.
    + inversion G3 as [|? ? [G4 G5] G6]; subst. cbn [snd] in G4, G5. split; [|split]; cbn; auto. constructor; [|exact G6]. split; [|now constructor].
      cbn [snd rev]. apply same_flags_snoc; [exact G4|exact Logic.I].
  - unfold append_text in H. destruct (open_els p) eqn:Eo; [discriminate|]. injection H as <-. apply invariant_append; auto.
    + apply uniform_text.
    + intros _. now rewrite Bool.negb_involutive.
  - injection H as <-. apply invariant_append; auto. now apply uniform_others.
  - destruct (skipped_entity _ name) as [[d e]|] eqn:Es; [|discriminate]. cbn [rbind fst snd] in H.
    unfold append_text in H. destruct (open_els p) eqn:Eo; [discriminate|]. injection H as <-. apply invariant_append; auto.
    + apply uniform_text.
    + intros _. unfold skipped_entity in Es. destruct (assoc _ html5); [|discriminate]. injection Es as <- <-. now rewrite Bool.negb_involutive.
  - injection H as <-. apply invariant_append; auto. now apply uniform_others.
  - unfold append_text in H. destruct (open_els p) eqn:Eo; [discriminate|]. cbn [rmap rbind] in H. injection H as <-.
    apply (invariant_append (DMark ln (L "<![CDATA[")) p); auto. now apply uniform_others.
  - unfold append_text in H. destruct (open_els p) eqn:Eo; [discriminate|]. cbn [rbind] in H.
    destruct (cdata_depth (append_node (DMark ln (L "]]>")) p)) as [|d]; [discriminate|]. injection H as <-.
    apply (invariant_append (DMark ln (L "]]>")) p); auto. now apply uniform_others.
Qed.
Theorem build_uniform : forall es l, build es = Ok l -> Forall uniform l.
Proof.
  intros es l H. unfold build in H.
  assert (G : forall es p p', handle_all p es = Ok p' -> invariant p -> invariant p').
  { clear. induction es as [|e es IH]; intros p p' H I; [now injection H as <-|]. cbn [handle_all] in H.
    destruct (handle p e) as [p1|] eqn:E; [|discriminate]. cbn [rbind] in H. eapply IH; [exact H|]. eapply handle_invariant; eassumption. }
  destruct (handle_all _ es) as [p|] eqn:E; [|discriminate]. apply G in E.
  - cbn [rmap] in H. injection H as <-. apply Forall_rev. apply E.
  - split; [|split]; cbn; auto.
Qed.

(** ** The whole transformation *)

Lemma expand_text : forall n, is_text (expand n) <-> is_text n.
Proof.
  assert (W : forall fuel ln tag a cs, ~ is_text (wrap fuel ln tag a cs)).
  { intros [|fuel] ln tag a cs; cbn [wrap]; [exact (fun h => h)|]. destruct (List.find _ _) as [[? ?]|]; exact (fun h => h). }
  intros [ln tag a cs| | | |]; try reflexivity. cbn [expand is_text]. split; [|tauto]. unfold expand_elem.
  destruct (rename tag a). destruct (_ && _); [destruct (rename _ _)|]; intros T; now apply W in T.
Qed.
Lemma same_flags_map : forall f l, (forall n, is_text (f n) <-> is_text n) -> (forall n, is_text n -> f n = n) ->
  same_flags l -> same_flags (map f l).
Proof.
  intros f l H1 H2 F a ln t e ln' t' e' b E.
  assert (exists a0 x y b0, l = a0 ++ x :: y :: b0 /\ f x = DText ln t e /\ f y = DText ln' t' e') as (a0 & x & y & b0 & -> & Ex & Ey).
  { apply map_eq_app in E as (l1 & l2 & -> & _ & E). destruct l2 as [|x [|y l2]]; try discriminate. exists l1, x, y, l2. cbn in E.
    injection E as Ex Ey _. auto. }
  assert (Tx : is_text x) by (apply H1; now rewrite Ex). assert (Ty : is_text y) by (apply H1; now rewrite Ey).
  rewrite H2 in Ex, Ey by assumption. subst. eapply F. reflexivity.
Qed.
Lemma same_flags_cons : forall n l, ~ is_text n -> same_flags l -> same_flags (n :: l).
Proof.
  intros n l H F [|x a] ln t e ln' t' e' b E; cbn in E.
  - injection E as -> _. now destruct H.
  - injection E as -> E. eapply F. exact E.
Qed.
Lemma uniform_around : forall ln ds n, uniform n -> uniform (fold_right (around ln) n ds).
Proof.
  intros ln ds n U. induction ds as [|[[name arg] v] ds IH]; [exact U|]. cbn [fold_right around]. apply uniform_elem.
  - intros [|x [|y a]] l0 t e l1 t' e' b E; discriminate.
  - auto.
Qed.
Lemma expand_uniform : forall n, uniform n -> uniform (expand n).
Proof.
  apply (dnode_rec' (fun n => uniform n -> uniform (expand n))); intros; try assumption.
  rename H0 into U. assert (F : same_flags cs) by (apply (U ln tag a); constructor).
  assert (G : same_flags (map expand cs)) by (apply same_flags_map; [apply expand_text|intros []; try reflexivity; now intros []|exact F]).
  assert (V : Forall uniform (map expand cs)).
  { apply Forall_map. rewrite Forall_forall in H |- *. intros c Ic. apply H; [exact Ic|]. eapply uniform_child; eassumption. }
  pose proof (expand_expands (DElem ln tag a cs)) as E. cbn [expand] in *.
  destruct (directive_dec tag) as [D|[arg D]].
  - destruct (list_eq_dec N.eq_dec tag (L "py:nop")) as [En|En]; [|destruct (has_attr (L "py:extends") a) eqn:X].
    + rewrite expand_plain by auto. apply uniform_around. now apply uniform_elem.
    + rewrite expand_extends by auto. apply uniform_around. apply uniform_elem.
      * apply same_flags_cons; [exact (fun h => h)|exact G].
      * constructor; [|exact V]. apply uniform_elem; [intros [|? [|? ?]] ? ? ? ? ? ? ? E'; discriminate|].
        repeat constructor. apply uniform_elem; [intros [|? ?] ? ? ? ? ? ? ? E'; discriminate|constructor].
    + rewrite expand_plain by auto. apply uniform_around. now apply uniform_elem.
  - rewrite (expand_directive ln tag arg) by assumption. apply uniform_around. now apply uniform_elem.
Qed.

Lemma content_elem : forall ln tag a cs, content (DElem ln tag a cs) = flat_map content cs.
Proof.
  intros. unfold content. cbn [tokens filter]. rewrite filter_app. cbn [filter]. rewrite app_nil_r.
  induction cs as [|c cs IH]; [reflexivity|]. cbn [flat_map]. now rewrite filter_app, IH.
Qed.
Lemma content_around : forall ln ds n, content (fold_right (around ln) n ds) = content n.
Proof.
  intros ln ds n. induction ds as [|[[name arg] v] ds IH]; [reflexivity|]. cbn [fold_right around]. rewrite content_elem.
  cbn [flat_map]. now rewrite app_nil_r.
Qed.
Lemma expand_content : forall n, content (expand n) = content n.
Proof.
  apply dnode_rec'; intros; try reflexivity. cbn [expand].
  assert (G : flat_map content (map expand cs) = flat_map content cs) by (induction H; [reflexivity|]; cbn [map flat_map]; congruence).
  destruct (directive_dec tag) as [D|[arg D]].
  - destruct (list_eq_dec N.eq_dec tag (L "py:nop")) as [En|En]; [|destruct (has_attr (L "py:extends") a) eqn:X].
    + rewrite expand_plain by auto. now rewrite content_around, !content_elem.
    + rewrite expand_extends by auto. rewrite content_around, !content_elem. cbn [flat_map]. rewrite !content_elem. cbn [flat_map]. now rewrite content_elem.
    + rewrite expand_plain by auto. now rewrite content_around, !content_elem.
  - rewrite (expand_directive ln tag arg) by assumption. now rewrite content_around, !content_elem.
Qed.
Lemma content_tokens : forall n n', tokens n = tokens n' -> content n = content n'.
Proof. intros n n' H. unfold content. now rewrite H. Qed.
Lemma merge_tokens : forall n, uniform n -> tokens (merge n) = tokens n.
Proof.
  intros n U. destruct (text_dec n) as [T|T]; [now rewrite merge_text|].
  apply (proj1 merged_tokens); [now apply merge_merged|exact U].
Qed.
Lemma spaces_tokens : forall n, tokens (extract_spaces n) = tokens n.
Proof.
  intros n. destruct (text_dec n) as [T|T]; [destruct n; try reflexivity; now destruct T|].
  apply (proj1 spaced_tokens). now apply extract_spaced.
Qed.

Theorem transform_content : forall es l dtd, build es = Ok l ->
  flat_map content (d_children (transform false (Document dtd l))) = flat_map content l.
Proof.
  intros es l dtd B. apply build_uniform in B. unfold transform. cbn [d_children].
  rewrite flat_map_concat_map, map_map, <- flat_map_concat_map.
  assert (S : forall m, flat_map (fun n => content (extract_spaces n)) m = flat_map content m)
    by (intros m; apply flat_map_ext; intros n; apply content_tokens, spaces_tokens).
  rewrite S. destruct l as [|n l]; [reflexivity|]. cbn [on_first flat_map]. f_equal.
  inversion B; subst. rewrite (content_tokens _ (expand n)) by (apply merge_tokens; now apply expand_uniform). apply expand_content.
Qed.
