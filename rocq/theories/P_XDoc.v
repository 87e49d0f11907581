(** * Compilation of documents: the generated nodes say what the document says *)

From Coq Require Import Ascii String List Arith NArith ZArith Bool Lia Permutation Sorted.
From Verif Require Import PyStr PyStrLemmas M_Values S_Values P_Values M_IR S_IR M_Exec S_Exec P_Exec P_Exec2 P_Exec3 P_Exec4 P_Exec5
  M_Text M_XText S_XText P_XText P_XText2 M_Entities S_Entities M_Dom M_XCompile S_XDoc.
From Verif Require P_Dom2.
Import ListNotations.
Open Scope list_scope.

(** ** Generated names *)
Section Named.
Variable gen : str -> Prop.
Fixpoint named (n : node) : Prop :=
  let all := fix go (l : list node) : Prop := match l with [] => True | m :: l' => named m /\ go l' end in
  match n with
  | NIf _ _ b | NElse _ b | NFor _ _ b | NWith _ _ b | NSwitch _ _ b | NCase _ _ b => all b
  | NAttr _ _ v _ _ g1 g2 x => gen g1 /\ gen g2 /\ gen x /\ all v
  | NAttrs _ _ _ _ x => gen x
  | _ => True
  end.
Definition nameds (l : list node) : Prop := Forall named l.
Lemma named_all : forall l, (fix go (l : list node) : Prop := match l with [] => True | m :: l' => named m /\ go l' end) l <-> nameds l.
Proof.
  induction l as [|n l IH]; [split; constructor|]. split.
  - intros [H1 H2]. constructor; [exact H1|now apply IH].
  - intros H. inversion H; subst. split; [assumption|now apply IH].
Qed.
End Named.

(** ** Computations of the compiler that only draw names *)
Definition keeps (s s' : cst) : Prop :=
  c_funs s' = c_funs s /\ c_mod s' = c_mod s /\ c_in_def s' = c_in_def s /\ c_is_child s' = c_is_child s.
Lemma keeps_refl : forall s, keeps s s. Proof. repeat split. Qed.
Lemma keeps_trans : forall a b c, keeps a b -> keeps b c -> keeps a c.
Proof. unfold keeps. intuition congruence. Qed.

Lemma pieces_of_app : forall a b pa pb, pieces_of a = Some pa -> pieces_of b = Some pb -> pieces_of (a ++ b) = Some (pa ++ pb).
Proof.
  induction a as [|n a IH]; intros b pa pb Ha Hb.
  - injection Ha as <-. exact Hb.
  - cbn [pieces_of app] in *. destruct (piece_of n) as [p|]; [|discriminate]. cbn [obind] in *.
    destruct (pieces_of a) as [pa'|]; [|discriminate]. cbn [option_map] in Ha.
    assert (pa = p :: pa') by congruence. subst. rewrite (IH b pa' pb eq_refl Hb). reflexivity.
Qed.

Section Gives.
Variable gen : str -> Prop.
Definition gives (m : M (list node)) (ps : list S_Exec.piece) : Prop :=
  forall s, exists ns s', m s = Ok (ns, s') /\ pieces_of ns = Some ps /\ nameds gen ns /\ keeps s s'.
Lemma gives_ret : forall ns ps, pieces_of ns = Some ps -> nameds gen ns -> gives (ret ns) ps.
Proof. intros ns ps P N0 s. exists ns, s. split; [reflexivity|]. split; [assumption|]. split; [assumption|apply keeps_refl]. Qed.
Lemma gives_nil : gives (ret []) [].
Proof. apply gives_ret; [reflexivity|constructor]. Qed.
Lemma gives_cat : forall a b pa pb, gives a pa -> gives b pb -> gives (cat a b) (pa ++ pb).
Proof.
  intros a b pa pb Ha Hb s. destruct (Ha s) as (na & s1 & Ea & Pa & Na & Ka). destruct (Hb s1) as (nb & s2 & Eb & Pb & Nb & Kb).
  exists (na ++ nb), s2. unfold cat, bind. rewrite Ea. cbn [rbind fst snd]. rewrite Eb. cbn [rbind fst snd ret].
  split; [reflexivity|]. split; [now apply pieces_of_app|]. split; [now apply Forall_app|eapply keeps_trans; eassumption].
Qed.
Lemma gives_then : forall a f pa pf,
  gives a pa -> (forall ns, pieces_of ns = Some pa -> nameds gen ns -> gives (f ns) pf) -> gives (bind a f) pf.
Proof.
  intros a f pa pf Ha Hf s. destruct (Ha s) as (na & s1 & Ea & Pa & Na & Ka). destruct (Hf na Pa Na s1) as (nb & s2 & Eb & Pb & Nb & Kb).
  exists nb, s2. unfold bind. rewrite Ea. cbn [rbind fst snd]. split; [exact Eb|]. split; [assumption|]. split; [assumption|eapply keeps_trans; eassumption].
Qed.
Lemma gives_lift : forall (r : result (list node)) ns ps, r = Ok ns -> pieces_of ns = Some ps -> nameds gen ns -> gives (lift r) ps.
Proof.
  intros r ns ps -> P N0 s. exists ns, s. split; [reflexivity|]. split; [assumption|]. split; [assumption|apply keeps_refl].
Qed.
Lemma gives_lift_then : forall {A} (r : result A) a f ps, r = Ok a -> gives (f a) ps -> gives (bind (lift r) f) ps.
Proof. intros A r a f ps -> H s. destruct (H s) as (ns & s' & E & R). exists ns, s'. split; [exact E|exact R]. Qed.
Lemma gives_draw : forall k f ps, (forall i, gives (f i) ps) -> gives (bind (draw k) f) ps.
Proof.
  intros k f ps H s. unfold bind, draw. cbn [rbind fst snd].
  destruct (H (c_names s) (Cst (c_funs s) (c_mod s) (c_in_def s) (c_is_child s) (c_names s + k))) as (ns & s' & E & P & N0 & K).
  exists ns, s'. split; [exact E|]. split; [assumption|]. split; [assumption|exact K].
Qed.
End Gives.

(** ** Texts *)
Lemma text_piece : forall k p, piece_of (piece_node k p) = Some (PcStm (text_stm k p)).
Proof.
  intros k [ln t|ln x]; cbn [piece_node text_stm].
  - destruct k; try reflexivity. unfold make_text_node. pose proof (strip_blank_spec t) as B.
    destruct (strip t); rewrite <- B; reflexivity.
  - destruct k; reflexivity.
Qed.
Lemma text_pieces : forall k ps, pieces_of (map (piece_node k) ps) = Some (map PcStm (map (text_stm k) ps)).
Proof.
  induction ps as [|p ps IH]; [reflexivity|]. cbn [map pieces_of]. rewrite text_piece. cbn [obind]. now rewrite IH.
Qed.
Lemma text_named : forall gen k ps, nameds gen (map (piece_node k) ps).
Proof.
  intros gen k ps. apply Forall_map, Forall_forall. intros [ln t|ln x] _; cbn [piece_node].
  - destruct k; try exact Logic.I. unfold make_text_node. now destruct (strip t).
  - exact Logic.I.
Qed.
Lemma text_nodes_reads : forall compile k ln t ps, reads compile ln t ps -> text_nodes compile k ln t = Ok (map (piece_node k) ps).
Proof. intros compile k ln t ps R. apply pieces_spec in R. unfold text_nodes. now rewrite R. Qed.

(** A sequence of plain statements assembles to itself. *)
Lemma assemble_stms : forall ss, assemble (map PcStm ss) = Some ss.
Proof.
  induction ss as [|s ss IH]; [reflexivity|]. cbn [map assemble]. destruct s; try (now rewrite IH);
    destruct ss as [|s' ss']; try reflexivity; cbn [map]; cbn [map] in IH; now rewrite IH.
Qed.

(** ** Attribute tables *)
Lemma has_attr_spec : forall k a, has_attr k a = true <-> In k (map fst a).
Proof.
  intros k a. unfold has_attr. rewrite existsb_exists, in_map_iff. split.
  - intros ([k' v] & I1 & E). apply seqb_eq in E. exists (k', v). split; [symmetry; exact E|exact I1].
  - intros ([k' v] & E & I1). exists (k', v). split; [exact I1|]. cbn in *. subst. apply seqb_refl.
Qed.
Lemma has_attr_absent : forall k a, absent k a -> has_attr k a = false.
Proof. intros k a H. destruct (has_attr k a) eqn:E; [|reflexivity]. apply has_attr_spec in E. contradiction. Qed.
Lemma get_attr_absent : forall k a, absent k a -> get_attr k a = [].
Proof.
  induction a as [|[k' v] a IH]; intros H; [reflexivity|]. cbn [get_attr]. destruct (seqb k k') eqn:E.
  - apply seqb_eq in E. subst. exfalso. apply H. now left.
  - apply IH. intros I1. apply H. now right.
Qed.
Lemma get_attr_value : forall k a v, NoDup (map fst a) -> value_at k a v -> get_attr k a = v.
Proof.
  induction a as [|[k' v'] a IH]; intros v ND H; [destruct H|]. cbn [get_attr]. inversion ND as [|? ? Nk ND']; subst. destruct H as [E|H].
  - injection E as -> ->. now rewrite seqb_refl.
  - destruct (seqb k k') eqn:E.
    + apply seqb_eq in E. subst. exfalso. apply Nk. apply in_map_iff. now exists (k', v).
    + now apply IH.
Qed.
Lemma value_has : forall k a v, value_at k a v -> has_attr k a = true.
Proof. intros k a v H. apply has_attr_spec, in_map_iff. now exists (k, v). Qed.

Lemma filter_sorted : forall {A} (f : str * A -> bool) l, StronglySorted by_name l -> StronglySorted by_name (filter f l).
Proof.
  induction l as [|x l IH]; intros S; [constructor|]. inversion S; subst. cbn [filter]. destruct (f x); [|auto]. constructor; [auto|].
  rewrite Forall_forall in *. intros y I1. apply filter_In in I1 as [I1 _]. auto.
Qed.
Lemma filter_perm : forall {A} (f : A -> bool) l l', Permutation l l' -> Permutation (filter f l) (filter f l').
Proof.
  intros A f l l' P. induction P; cbn [filter].
  - constructor.
  - destruct (f x); [now constructor|assumption].
  - destruct (f x), (f y); try constructor; apply Permutation_refl.
  - eapply perm_trans; eassumption.
Qed.
Lemma filter_nodup_keys : forall {A} (f : str * A -> bool) l, NoDup (map fst l) -> NoDup (map fst (filter f l)).
Proof.
  induction l as [|x l IH]; intros ND; [constructor|]. inversion ND; subst. cbn [filter]. destruct (f x); [|auto]. cbn [map]. constructor; [|auto].
  intros I1. apply in_map_iff in I1 as (y & E & I1). apply filter_In in I1 as [I1 _]. apply H1. rewrite <- E. now apply in_map.
Qed.
Lemma sort_is : forall {A} (l sorted : list (str * A)), NoDup (map fst l) -> Permutation l sorted -> StronglySorted by_name sorted ->
  sort_attrs l = sorted.
Proof.
  intros A l sorted ND P S. rewrite (sort_attrs_perm_eq _ l sorted ND P).
  assert (ND' : NoDup (map fst sorted)) by (eapply Permutation_NoDup; [apply Permutation_map; exact P|exact ND]).
  clear - S ND'. induction S as [|x l S IH F]; [reflexivity|]. cbn [sort_attrs]. inversion ND'; subst. rewrite IH by assumption.
  destruct l as [|y l]; [reflexivity|]. cbn [insert_attr]. inversion F; subst. unfold by_name in H3. now rewrite H3.
Qed.


(** ** Nodes *)
Section Compile.
Variable compile : str -> compiled.
Variable helper : nat -> str.
Variable autoblocks : list str.
Variable cdata_scripts : bool.
Variable mode : str.
Variable gen : str -> Prop.
Hypothesis helper_gen : forall i, gen (helper i).

Notation cnode := (compile_node compile helper autoblocks cdata_scripts mode).
Notation Says := (says compile autoblocks cdata_scripts mode).
Notation RestSays := (rest_says compile autoblocks cdata_scripts mode).
Notation AllSay := (all_say compile autoblocks cdata_scripts mode).
Notation Gives := (gives gen).

(** The children of an element. *)
Definition children (keep_marks : bool) (ln : nat) (self : parent_node) : str -> list dnode -> M (list node) :=
  fix go (prev : str) (l : list dnode) : M (list node) :=
    match l with
    | [] => ret []
    | c :: l' =>
        cat (match keep_marks, c with
             | true, DMark _ t => ret [NText ln t None]
             | _, _ => cnode self prev c
             end) (go (tag_of c) l')
    end.
Lemma children_nil : forall k ln self prev, children k ln self prev [] = ret []. Proof. reflexivity. Qed.
Lemma children_mark : forall ln self prev ln' t l, children true ln self prev (DMark ln' t :: l) =
  cat (ret [NText ln t None]) (children true ln self [] l).
Proof. reflexivity. Qed.
Lemma children_node : forall k ln self prev n l, k = false \/ ~ is_mark n ->
  children k ln self prev (n :: l) = cat (cnode self prev n) (children k ln self (tag_of n) l).
Proof. intros k ln self prev n l [->|H]; [reflexivity|]. destruct k; [|reflexivity]. destruct n; try reflexivity. now destruct H. Qed.

Definition strip_guard (attrs : list (str * str)) : option str :=
  if has_attr (L "py:strip") attrs
  then Some (match get_attr (L "py:strip") attrs with [] => L "False" | g => L "not (" ++ g ++ L ")" end)
  else None.
(** What follows the attributes. *)
Definition rest_nodes (self : parent_node) (ln : nat) (tag : str) (attrs : list (str * str)) (guard : option str) (cs : list dnode) : M (list node) :=
  let text (t : str) := NText ln t guard in
  let end_tag := text (L "</" ++ tag ++ L ">") in
  match get_attr (L "py:content") attrs with
  | c0 :: c => ret [text (L ">"); NExpr ln (c0 :: c) false; end_tag]
  | [] =>
      match cs with
      | _ :: _ =>
          cat (ret [text (L ">")])
         (cat (if cdata_scripts && smem tag html_cdata_tags then
                 let marked (t : str) := if seqb mode (L "xml") then [NText ln t None] else [] in
                 cat (ret (marked (L "/*<![CDATA[*/")))
                (cat (script_nodes compile tag attrs cs) (ret (marked (L "/*]]>*/"))))
               else children true ln self [] cs)
              (ret (if html mode && smem tag html_optional_end_tags then [] else [end_tag])))
      | [] =>
          if smem tag html_required_end_tags then ret [text (L "></" ++ tag ++ L ">")]
          else if html mode then
            if smem tag html_optional_end_tags then ret [text (L ">")]
            else ret [text (L "></" ++ tag ++ L ">")]
          else ret [text (L "/>")]
      end
  end.
Definition more_nodes (ln : nat) (attrs : list (str * str)) (guard : option str) : M (list node) :=
  match get_attr (L "py:attrs") attrs with
  | [] => ret []
  | a => bind (draw 1) (fun i => ret [NAttrs ln a guard mode (helper i)])
  end.

Lemma not_autoblock : forall tag a, ~ In tag autoblocks -> is_autoblock autoblocks tag a = Ok (false, a).
Proof. intros tag a H. unfold is_autoblock. apply smem_notIn in H. now rewrite H. Qed.
Lemma compile_xml : forall p prev ln tag a cs s, ~ In tag autoblocks -> method_of tag = KXml ->
  cnode p prev (DElem ln tag a cs) s =
  let guard := strip_guard a in
  let attrs := remove_attr (L "py:strip") a in
  cat (ret [NText ln (L "<" ++ tag) guard])
 (cat (compile_attrs compile helper mode ln guard (sorted_attrs attrs))
 (cat (more_nodes ln attrs guard) (rest_nodes (InElement tag a) ln tag attrs guard cs))) s.
Proof.
  intros p prev ln tag a cs s NA K. cbn [compile_node]. unfold bind at 1, lift. rewrite not_autoblock by assumption. cbn [rmap rbind fst snd].
  rewrite K. reflexivity.
Qed.
Lemma compile_directive : forall p prev ln tag a cs s, ~ In tag autoblocks ->
  cnode p prev (DElem ln tag a cs) s =
  let nop := children false ln (InElement tag a) [] cs in
  match method_of tag with
  | KReplace => ret [NExpr ln (get_attr (L "value") a) false] s
  | KFor => bind nop (fun body => ret [NFor ln (get_attr (L "each") a) body]) s
  | KWith => bind nop (fun body => bind (lift (mk_with ln (get_attr (L "vars") a) body)) (fun n => ret [n])) s
  | KSwitch =>
      bind nop (fun body => bind (lift (switch_body body)) (fun body => ret [NSwitch ln (get_attr (L "test") a) body])) s
  | KCase => bind nop (fun body => ret [NCase ln (get_attr (L "value") a) body]) s
  | KIf => bind nop (fun body => ret [NIf ln (get_attr (L "test") a) body]) s
  | KElse =>
      bind (lift (else_allowed p prev)) (fun ok : bool =>
      if ok then bind nop (fun body => ret [NElse ln body]) else fail "XMLTemplateCompileError") s
  | KNop => nop s
  | _ => cnode p prev (DElem ln tag a cs) s
  end.
Proof.
  intros p prev ln tag a cs s NA. cbv zeta. destruct (method_of tag) eqn:K; try reflexivity;
    cbn [compile_node]; unfold bind at 1, lift at 1; rewrite not_autoblock by assumption; cbn [rmap rbind fst snd]; rewrite K; reflexivity.
Qed.
Definition parent_tag (p : parent_node) : str := match p with InDocument => [] | InElement tag _ => tag end.

Lemma cdata_tag : forall tag, smem tag html_cdata_tags = true <-> script_or_style tag.
Proof. intros tag. rewrite smem_In. unfold script_or_style, html_cdata_tags. cbn [In]. split; intros H; intuition congruence. Qed.
Lemma cdata_tag_false : forall tag, ~ script_or_style tag -> smem tag html_cdata_tags = false.
Proof. intros tag H. rewrite <- cdata_tag in H. destruct (smem tag html_cdata_tags); [now destruct H|reflexivity]. Qed.

Lemma text_gives : forall p parent ln t ss, text_says compile parent ln t ss -> parent_tag p = parent ->
  Gives (compile_text compile p ln t) (map PcStm ss).
Proof.
  intros p parent ln t ss H <-. destruct H as [ps SS R|ps Ne SS R]; (destruct p as [|tag a]; cbn [parent_tag] in *;
    [|unfold compile_text]).
  - destruct SS; discriminate.
  - rewrite (proj2 (cdata_tag _) SS). eapply gives_lift; [apply text_nodes_reads; exact R|apply text_pieces|apply text_named].
  - congruence.
  - rewrite (cdata_tag_false _ SS). eapply gives_lift; [apply text_nodes_reads; exact R|apply text_pieces|apply text_named].
Qed.

Lemma attrs_give : forall ln g l ss, attrs_say compile mode ln g l ss ->
  Gives (compile_attrs compile helper mode ln g (remove_attr (L "py:strip") l)) (map PcStm ss).
Proof.
  intros ln g l ss H. induction H as [|k v l ss ps Sp R H IH|k v l ps ss Sp R H IH].
  - apply gives_nil.
  - unfold remove_attr in *. cbn [filter fst]. destruct (seqb (L "py:strip") k) eqn:E; cbn [negb]; [exact IH|]. cbn [compile_attrs].
    eapply gives_lift_then.
    + apply text_nodes_reads, R. intros ->. now rewrite seqb_refl in E.
    + destruct Sp as [->|[->| ->]]; [exact IH|exact IH|now rewrite seqb_refl in E].
  - unfold remove_attr in *. cbn [filter fst].
    assert (E : forall k', In k' [L "py:content"; L "py:attrs"; L "py:strip"] -> seqb k' k = false /\ seqb k k' = false).
    { intros k' I1. assert (k <> k') by (intros ->; apply Sp; unfold special_attr; destruct I1 as [<-|[<-|[<-|[]]]]; auto).
      split; apply P_Dom2.seqb_neq; congruence. }
    destruct (E (L "py:strip")) as [-> _]; [cbn; tauto|]. cbn [negb compile_attrs].
    eapply gives_lift_then; [apply text_nodes_reads, R|].
    destruct (E (L "py:content")) as [_ ->]; [cbn; tauto|]. destruct (E (L "py:attrs")) as [_ ->]; [cbn; tauto|]. cbn [orb].
    apply gives_draw. intros i. cbn [map]. change (PcStm ?x :: ?y) with ([PcStm x] ++ y). apply gives_cat; [|exact IH]. apply gives_ret.
    + cbn [pieces_of piece_of]. rewrite piece_of_pieces, text_pieces. cbn [obind]. rewrite assemble_stms. reflexivity.
    + constructor; [|constructor]. cbn [named]. split; [apply helper_gen|]. split; [apply helper_gen|]. split; [apply helper_gen|].
      apply named_all, text_named.
Qed.

Lemma more_give : forall ln g a a' ss, more_attrs mode g a ss -> get_attr (L "py:attrs") a' = get_attr (L "py:attrs") a -> NoDup (map fst a) ->
  Gives (more_nodes ln a' g) (map PcStm ss).
Proof.
  intros ln g a a' ss H E ND. unfold more_nodes. rewrite E. destruct H as [[H|H]|x H Ne].
  - rewrite get_attr_absent by assumption. apply gives_nil.
  - rewrite (get_attr_value _ _ _ ND H). apply gives_nil.
  - rewrite (get_attr_value _ _ _ ND H). destruct x as [|c x]; [congruence|]. apply gives_draw. intros i. apply gives_ret; [reflexivity|].
    constructor; [apply helper_gen|constructor].
Qed.

Lemma decode_nodes : forall ps ss, Forall2 decoded (map (text_stm TK_raw) ps) ss ->
  exists ns, rseq (map unescape_node (map (piece_node TK_raw) ps)) = Ok ns /\ pieces_of ns = Some (map PcStm ss) /\ nameds gen ns.
Proof.
  induction ps as [|p ps IH]; intros ss H; inversion H as [|? s1 ? ss1 D H']; subst.
  - exists []. repeat split. constructor.
  - destruct (IH _ H') as (ns & E & P & N0). destruct p as [ln t|ln x]; cbn [text_stm] in D; inversion D; subst; cbn [map piece_node unescape_node rseq].
    + match goal with U : unescape _ = Ok _ |- _ => rewrite U end. cbn [rmap rbind]. rewrite E. eexists. split; [reflexivity|].
      cbn [pieces_of piece_of obind]. rewrite P. split; [reflexivity|]. constructor; [exact Logic.I|exact N0].
    + match goal with U : unescape _ = Ok _ |- _ => rewrite U end. cbn [rmap rbind]. rewrite E. eexists. split; [reflexivity|].
      cbn [pieces_of piece_of obind]. rewrite P. split; [reflexivity|]. constructor; [exact Logic.I|exact N0].
Qed.
Lemma script_give : forall tag a l ss, script_says compile tag l ss -> script_or_style tag ->
  Gives (script_nodes compile tag a l) (map PcStm ss).
Proof.
  intros tag a l ss H SS. induction H as [|ln t l ss H IH|ln t l ss ss' T H IH|ln t l ss ss1 ss' T D H IH]; cbn [script_nodes].
  - apply gives_nil.
  - exact IH.
  - rewrite map_app. eapply gives_then.
    + eapply text_gives; [exact T|reflexivity].
    + intros ns P N0. eapply gives_lift_then; [reflexivity|]. apply gives_cat; [apply gives_ret; assumption|exact IH].
  - rewrite map_app. destruct T as [ps _ R|ps _ NS _]; [|contradiction]. destruct (decode_nodes _ _ D) as (ns & E & P & N0).
    unfold compile_text. rewrite (proj2 (cdata_tag _) SS). rewrite (text_nodes_reads _ _ _ _ _ R).
    eapply gives_lift_then; [reflexivity|]. eapply gives_lift_then; [exact E|]. apply gives_cat; [apply gives_ret; assumption|exact IH].
Qed.

(** A switch drops blank texts. *)
Lemma switch_keep : forall ns ps ce, pieces_of ns = Some ps -> assemble_switch (filter (fun p => negb (blank_text p)) ps) = Some ce -> nameds gen ns ->
  exists ns', switch_body ns = Ok ns' /\ pieces_of ns' = Some (filter (fun p => negb (blank_text p)) ps) /\ nameds gen ns'.
Proof.
  induction ns as [|n ns IH]; intros ps ce P A N0.
  - injection P as <-. exists []. repeat split. constructor.
  - inversion N0 as [|? ? Nn Nns]; subst. cbn [pieces_of] in P. destruct (piece_of n) as [p|] eqn:Pn; [|discriminate]. cbn [obind] in P.
    destruct (pieces_of ns) as [ps'|] eqn:Pns; [|discriminate]. cbn [option_map] in P. assert (ps = p :: ps') by congruence. subst ps.
    cbn [filter] in A |- *.
    assert (T : forall t, ir_text n = Some t -> blank_text p = forallb is_space t).
    { intros t E. destruct n; cbn in E; try discriminate; injection E as <-; cbn [piece_of] in Pn; injection Pn as <-; reflexivity. }
    cbn [switch_body]. destruct (ir_text n) as [t|] eqn:It.
    + specialize (T t eq_refl). rewrite <- (strip_blank_spec t) in T. destruct (blank_text p) eqn:B; cbn [negb] in A |- *.
      * destruct (strip t); [|discriminate]. destruct (IH _ _ eq_refl A Nns) as (ns' & E & R). exists ns'. split; [exact E|exact R].
      * exfalso. destruct n; cbn in It; try discriminate; cbn [piece_of] in Pn; injection Pn as <-; cbn in A; discriminate.
    + assert (B : blank_text p = false).
      { destruct n; cbn in It; try discriminate; cbn [piece_of] in Pn; try discriminate;
          try (injection Pn as <-; reflexivity);
          repeat match type of Pn with option_map _ ?o = _ => destruct o; [|discriminate]; cbn [option_map] in Pn; injection Pn as <-; reflexivity end. }
      rewrite B in A |- *. cbn [negb] in A |- *.
      assert (C : is_case_or_else n = true /\ exists ce', assemble_switch (filter (fun p => negb (blank_text p)) ps') = Some ce').
      { destruct p as [s|b|c b].
        - cbn in A. discriminate.
        - cbn [assemble_switch] in A. destruct (filter _ ps') eqn:Ef; [|discriminate]. split; [|eexists; reflexivity].
          destruct n; cbn [piece_of] in Pn; try reflexivity; try discriminate;
            match type of Pn with option_map _ ?o = _ => destruct o; discriminate end.
        - cbn [assemble_switch] in A. destruct (assemble_switch (filter _ ps')) as [ce'|]; [|discriminate]. split; [|eexists; reflexivity].
          destruct n; cbn [piece_of] in Pn; try reflexivity; try discriminate;
            match type of Pn with option_map _ ?o = _ => destruct o; discriminate end. }
      destruct C as [C [ce' A']]. rewrite C. destruct (IH _ _ eq_refl A' Nns) as (ns' & E & P' & N').
      rewrite E. cbn [rmap]. eexists. split; [reflexivity|]. split; [|constructor; assumption].
      cbn [pieces_of]. rewrite Pn. cbn [obind]. now rewrite P'.
Qed.


Scheme says_mut := Induction for says Sort Prop
  with rest_mut := Induction for rest_says Sort Prop
  with all_mut := Induction for all_say Sort Prop.
Combined Scheme says_induction from says_mut, rest_mut, all_mut.

Lemma gives_eq : forall m m' ps, (forall s, m' s = m s) -> Gives m ps -> Gives m' ps.
Proof. intros m m' ps E H s. destruct (H s) as (ns & s' & R). rewrite E. now exists ns, s'. Qed.

Lemma void_spec : forall tag, smem tag html_optional_end_tags = true <-> void tag.
Proof. intros tag. apply smem_In. Qed.
Lemma void_false : forall tag, ~ void tag -> smem tag html_optional_end_tags = false.
Proof. intros tag H. apply smem_notIn. exact H. Qed.
Lemma script_not_void : forall tag, script_or_style tag -> ~ void tag.
Proof. intros tag [->| ->] V; apply void_spec in V; vm_compute in V; discriminate. Qed.
Lemma script_spec : forall tag, smem tag html_required_end_tags = true <-> tag = L "script".
Proof. intros tag. rewrite smem_In. cbn [html_required_end_tags In]. intuition congruence. Qed.
Lemma html_false : ~ is_html mode -> html mode = false.
Proof. unfold is_html, html. now destruct (prefixb (L "html") mode). Qed.

Lemma no_content : forall a, NoDup (map fst a) -> no_content_attr a -> get_attr (L "py:content") a = [].
Proof. intros a ND [H|H]; [now apply get_attr_absent|now apply get_attr_value]. Qed.
Lemma get_removed : forall k k' a, k <> k' -> get_attr k (remove_attr k' a) = get_attr k a.
Proof.
  intros k k' a Ne. induction a as [|[k1 v] a IH]; [reflexivity|]. unfold remove_attr in *. cbn [filter fst get_attr].
  destruct (seqb k' k1) eqn:E; cbn [negb]; [|cbn [get_attr]; now rewrite IH].
  apply seqb_eq in E. subst k1. now rewrite (P_Dom2.seqb_neq k k').
Qed.
Lemma guard_spec : forall a g, NoDup (map fst a) -> tag_condition a g -> strip_guard a = g.
Proof.
  intros a g ND [H|H|c H Ne]; unfold strip_guard.
  - now rewrite has_attr_absent.
  - now rewrite (value_has _ _ _ H), (get_attr_value _ _ _ ND H).
  - rewrite (value_has _ _ _ H), (get_attr_value _ _ _ ND H). destruct c; [congruence|reflexivity].
Qed.
Lemma gives_text : forall ln t g, Gives (ret [NText ln t g]) [PcStm (SText t g)].
Proof. intros. apply gives_ret; [reflexivity|repeat constructor]. Qed.

Lemma body_gives : forall nop ps (f : list node -> node) (q : S_Exec.piece), Gives nop ps ->
  (forall ns, pieces_of ns = Some ps -> nameds gen ns -> piece_of (f ns) = Some q /\ named gen (f ns)) ->
  Gives (bind nop (fun body => ret [f body])) [q].
Proof.
  intros nop ps f q G H. eapply gives_then; [exact G|]. intros ns P N0. destruct (H ns P N0) as [Hp Hn]. apply gives_ret.
  - cbn [pieces_of]. now rewrite Hp.
  - now constructor.
Qed.

Lemma compiles_says :
  (forall parent prev n ps, Says parent prev n ps -> forall p, parent_tag p = parent -> Gives (cnode p prev n) ps) /\
  (forall ln tag a g cs ps, RestSays ln tag a g cs ps -> NoDup (map fst a) -> forall self, parent_tag self = tag ->
     Gives (rest_nodes self ln tag (remove_attr (L "py:strip") a) g cs) ps) /\
  (forall marks parent prev l ps, AllSay marks parent prev l ps -> forall ln p, parent_tag p = parent ->
     Gives (children marks ln p prev l) ps).
Proof.
  apply says_induction.
  - (* comment *) intros parent prev ln t E p Hp. cbn [compile_node]. unfold compile_comment. rewrite E. apply gives_text.
  - intros parent prev ln t E p Hp. cbn [compile_node]. unfold compile_comment. rewrite E. apply gives_nil.
  - intros parent prev ln t e ss T p Hp. cbn [compile_node]. now apply (text_gives p parent).
  - intros parent prev ln t ss T p Hp. cbn [compile_node]. now apply (text_gives p parent).
  - (* if *) intros parent prev ln a cs test ps b NA E _ IH A p Hp. eapply gives_eq; [intros s; apply compile_directive; exact NA|].
    change (method_of (L "py:if")) with KIf. cbv zeta beta iota. eapply body_gives; [apply IH; reflexivity|].
    intros ns P N0. cbn [piece_of named]. rewrite piece_of_pieces, P. cbn [obind]. rewrite A, E. split; [reflexivity|now apply named_all].
  - (* else *) intros parent prev ln a cs ps b NA El _ IH A p Hp. eapply gives_eq; [intros s; apply compile_directive; exact NA|].
    change (method_of (L "py:else")) with KElse. cbv zeta beta iota. eapply (gives_lift_then _ _ true).
    + destruct p as [|tag a']; cbn [parent_tag] in Hp; subst parent.
      * destruct El as [El|[El _]]; [discriminate|congruence].
      * unfold else_allowed. destruct El as [->|[_ ->]]; [reflexivity|]. rewrite orb_true_r. reflexivity.
    + eapply body_gives; [apply IH; reflexivity|].
      intros ns P N0. cbn [piece_of named]. rewrite piece_of_pieces, P. cbn [obind]. rewrite A. split; [reflexivity|now apply named_all].
  - (* for *) intros parent prev ln a cs each ps b NA E _ IH A p Hp. eapply gives_eq; [intros s; apply compile_directive; exact NA|].
    change (method_of (L "py:for")) with KFor. cbv zeta beta iota. eapply body_gives; [apply IH; reflexivity|].
    intros ns P N0. cbn [piece_of named]. rewrite piece_of_pieces, P. cbn [obind]. rewrite A, E. split; [reflexivity|now apply named_all].
  - (* with *) intros parent prev ln a cs vars ps b NA E _ IH A p Hp. eapply gives_eq; [intros s; apply compile_directive; exact NA|].
    change (method_of (L "py:with")) with KWith. cbv zeta beta iota. eapply gives_then; [apply IH; reflexivity|].
    intros ns P N0. eapply gives_lift_then; [unfold mk_with; rewrite E; reflexivity|]. apply gives_ret.
    + cbn [pieces_of piece_of]. rewrite piece_of_pieces, P. cbn [obind]. rewrite A. reflexivity.
    + constructor; [|constructor]. cbn [named]. now apply named_all.
  - (* switch *) intros parent prev ln a cs test ps cases els NA E _ IH A p Hp. eapply gives_eq; [intros s; apply compile_directive; exact NA|].
    change (method_of (L "py:switch")) with KSwitch. cbv zeta beta iota. eapply gives_then; [apply IH; reflexivity|].
    intros ns P N0. destruct (switch_keep _ _ _ P A N0) as (ns' & Es & P' & N'). eapply gives_lift_then; [exact Es|]. apply gives_ret.
    + cbn [pieces_of piece_of]. rewrite piece_of_pieces, P'. cbn [obind]. rewrite A, E. reflexivity.
    + constructor; [|constructor]. cbn [named]. now apply named_all.
  - (* case *) intros parent prev ln a cs v ps b NA E _ IH A p Hp. eapply gives_eq; [intros s; apply compile_directive; exact NA|].
    change (method_of (L "py:case")) with KCase. cbv zeta beta iota. eapply body_gives; [apply IH; reflexivity|].
    intros ns P N0. cbn [piece_of named]. rewrite piece_of_pieces, P. cbn [obind]. rewrite A, E. split; [reflexivity|now apply named_all].
  - (* replace *) intros parent prev ln a cs x NA E p Hp. eapply gives_eq; [intros s; apply compile_directive; exact NA|].
    change (method_of (L "py:replace")) with KReplace. cbv zeta beta iota. rewrite E. apply gives_ret; [reflexivity|repeat constructor].
  - (* nop *) intros parent prev ln a cs ps NA _ IH p Hp. eapply gives_eq; [intros s; apply compile_directive; exact NA|].
    change (method_of (L "py:nop")) with KNop. cbv zeta beta iota. apply IH. reflexivity.
  - (* element *) intros parent prev ln tag a cs g sorted shown more rest Py NA ND TC P S As Ma _ IH p Hp.
    eapply gives_eq; [intros s; apply compile_xml; [exact NA|unfold method_of; now rewrite Py]|]. cbv zeta.
    rewrite (guard_spec a g ND TC). change (PcStm ?x :: ?y) with ([PcStm x] ++ y).
    apply gives_cat; [apply gives_text|]. apply gives_cat; [|apply gives_cat].
    + unfold sorted_attrs.
      rewrite (sort_is (remove_attr (L "py:strip") a) (remove_attr (L "py:strip") sorted)).
      * now apply attrs_give.
      * now apply filter_nodup_keys.
      * now apply filter_perm.
      * now apply filter_sorted.
    + eapply more_give; [exact Ma|apply get_removed; discriminate|exact ND].
    + apply IH; [exact ND|reflexivity].
  - (* py:content *) intros ln tag a g cs c H Ne ND self Hs. unfold rest_nodes. cbv zeta. rewrite get_removed by discriminate.
    rewrite (get_attr_value _ _ _ ND H). destruct c as [|c0 c]; [congruence|]. apply gives_ret; [reflexivity|repeat constructor].
  - (* empty *) intros ln tag a g t NC Cl ND self Hs. unfold rest_nodes. cbv zeta. rewrite get_removed by discriminate.
    rewrite (no_content a ND NC). cbv iota. destruct Cl as [Hh V|Hh V| ->|Hh Ns].
    + assert (E : smem tag html_required_end_tags = false).
      { destruct (smem tag html_required_end_tags) eqn:E; [|reflexivity]. apply script_spec in E. exfalso. apply (script_not_void tag); [now left|exact V]. }
      rewrite E. unfold html. unfold is_html in Hh. rewrite Hh, (proj2 (void_spec tag) V). apply gives_text.
    + unfold html. unfold is_html in Hh. rewrite Hh, (void_false tag V). destruct (smem tag html_required_end_tags); apply gives_text.
    + change (smem (L "script") html_required_end_tags) with true. apply gives_text.
    + assert (E : smem tag html_required_end_tags = false).
      { destruct (smem tag html_required_end_tags) eqn:E; [|reflexivity]. apply script_spec in E. contradiction. }
      rewrite E, html_false by assumption. apply gives_text.
  - (* script *) intros ln tag a g cs ss NC Ne Cd SS H ND self Hs. unfold rest_nodes. cbv zeta. rewrite get_removed by discriminate.
    rewrite (no_content a ND NC). cbv iota. destruct cs as [|c cs]; [congruence|].
    rewrite Cd, (proj2 (cdata_tag tag) SS). cbn [andb].
    change (PcStm ?x :: ?y) with ([PcStm x] ++ y). apply gives_cat; [apply gives_text|]. apply gives_cat.
    + rewrite !map_app. apply gives_cat; [|apply gives_cat].
      * unfold cdata_open. destruct (seqb mode (L "xml")); [apply gives_text|apply gives_nil].
      * now apply script_give.
      * unfold cdata_close. destruct (seqb mode (L "xml")); [apply gives_text|apply gives_nil].
    + assert (E : smem tag html_optional_end_tags = false) by (apply void_false, script_not_void; exact SS).
      rewrite E, andb_false_r. apply gives_text.
  - (* children *) intros ln tag a g cs ps NC Ne NS NV _ IH ND self Hs. unfold rest_nodes. cbv zeta. rewrite get_removed by discriminate.
    rewrite (no_content a ND NC). cbv iota. destruct cs as [|c cs]; [congruence|].
    assert (E : cdata_scripts && smem tag html_cdata_tags = false).
    { destruct cdata_scripts; [|reflexivity]. apply cdata_tag_false. intros SS. now apply NS. }
    rewrite E. change (PcStm ?x :: ?y) with ([PcStm x] ++ y). apply gives_cat; [apply gives_text|]. apply gives_cat; [now apply IH|].
    assert (E2 : html mode && smem tag html_optional_end_tags = false).
    { destruct (html mode) eqn:Eh; [|reflexivity]. apply void_false. intros V. apply NV. now split. }
    rewrite E2. apply gives_text.
  - (* children of a void element *) intros ln tag a g cs ps NC Ne Hh V _ IH ND self Hs. unfold rest_nodes. cbv zeta. rewrite get_removed by discriminate.
    rewrite (no_content a ND NC). cbv iota. destruct cs as [|c cs]; [congruence|].
    assert (E : smem tag html_cdata_tags = false).
    { apply cdata_tag_false. intros SS. now apply (script_not_void tag). }
    rewrite E, andb_false_r. change (PcStm ?x :: ?y) with ([PcStm x] ++ y). rewrite <- (app_nil_r ps) at 1.
    apply gives_cat; [apply gives_text|]. apply gives_cat; [now apply IH|].
    unfold is_html in Hh. unfold html. rewrite Hh, (proj2 (void_spec tag) V). apply gives_nil.
  - intros marks parent prev ln p Hp. rewrite children_nil. apply gives_nil.
  - intros parent prev ln t l ps _ IH ln' p Hp. rewrite children_mark. change (PcStm ?x :: ?y) with ([PcStm x] ++ y).
    apply gives_cat; [apply gives_text|now apply IH].
  - intros marks parent prev n l ps qs NM _ IH1 _ IH2 ln p Hp. rewrite children_node by assumption. apply gives_cat; [now apply IH1|]. now apply IH2.
Qed.

End Compile.
