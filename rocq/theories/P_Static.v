(** * Proofs: documents without directives *)

From Coq Require Import Ascii String List Arith NArith ZArith Bool Lia Permutation Sorted.
From Verif Require Import PyStr PyStrLemmas M_Values S_Values P_Values M_IR S_IR P_IR M_Exec S_Exec P_Exec P_Exec2 P_Exec3 P_Exec4 P_Exec5
  M_Text M_XText S_Text S_XText P_XText P_XText2 M_Entities S_Entities P_Entities M_Dom S_Dom P_Dom P_Dom2 M_Doctype M_XCompile S_XDoc P_XDoc P_XDoc2 P_XStrip S_Markup P_Markup S_Nested P_Nested P_Raw P_Nested2 S_Static.
Import ListNotations.
Open Scope list_scope.

(** ** Texts without references *)
Lemma plain_in : forall t u, plain_text t u -> forall c, In c u -> In c t.
Proof.
  intros t u H. induction H as [|c t u Nc H IH|t u H IH|t u Nr H IH]; intros x I1; [destruct I1| | |].
  - destruct I1 as [->|I1]; [now left|right; now apply IH].
  - destruct I1 as [<-|I1]; [now left|]. right. right. now apply IH.
  - destruct I1 as [<-|I1]; [now left|]. right. now apply IH.
Qed.
Lemma ref_start_app : forall s t, ref_start (L "$" ++ s) -> ref_start (L "$" ++ s ++ t).
Proof. intros s t (c & v & E & H). exists c, (v ++ t). split; [|exact H]. cbn [L list_ascii_of_string map app] in *. injection E as ->. reflexivity. Qed.
(** Blanks at the end may be cut off. *)
Lemma plain_cut : forall t u, plain_text t u -> forall b c, t = b ++ c -> Forall space c -> exists ub uc, plain_text b ub /\ plain_text c uc /\ u = ub ++ uc.
Proof.
  intros t u H. induction H as [|x t u Nx H IH|t u H IH|t u Nr H IH]; intros b c E Fc.
  - symmetry in E. apply app_eq_nil in E. destruct E as [-> ->]. exists [], []. repeat split; constructor.
  - destruct b as [|y b]; cbn [app] in E.
    + subst c. exists [], (x :: u). split; [constructor|]. split; [now constructor|reflexivity].
    + injection E as <- E. destruct (IH b c E Fc) as (ub & uc & Hb & Hc & ->). exists (x :: ub), uc. split; [now constructor|]. now split.
  - destruct b as [|y b]; cbn [app] in E.
    + subst c. exists [], (L "$" ++ u). split; [constructor|]. split; [now constructor|reflexivity].
    + cbn [L list_ascii_of_string map app] in E. injection E as <- E. destruct b as [|z b]; cbn [app] in E.
      * subst c. apply Forall_cons_iff in Fc. destruct Fc as [Fx _]. vm_compute in Fx. discriminate.
      * injection E as <- E. destruct (IH b c E Fc) as (ub & uc & Hb & Hc & ->). exists (L "$" ++ ub), uc. split; [exact (pn_two b ub Hb)|]. now split.
  - destruct b as [|y b]; cbn [app] in E.
    + subst c. exists [], (L "$" ++ u). split; [constructor|]. split; [now constructor|reflexivity].
    + cbn [L list_ascii_of_string map app] in E. injection E as <- E. destruct (IH b c E Fc) as (ub & uc & Hb & Hc & ->). exists (L "$" ++ ub), uc.
      split; [|now split]. apply (pn_lone b ub); [|exact Hb]. intros R. apply Nr. rewrite E. now apply ref_start_app.
Qed.
(** And blanks at the beginning. *)
Lemma plain_cut_front : forall a b u, Forall space a -> plain_text (a ++ b) u -> exists ub, plain_text a a /\ plain_text b ub /\ u = a ++ ub.
Proof.
  intros a b u F. revert u. induction F as [|x a Fx F IH]; intros u H; [exists u; repeat split; [constructor|exact H]|]. cbn [app] in H.
  assert (Nx : x <> c_dollar) by (intros ->; vm_compute in Fx; discriminate). inversion H as [|x' t' u' _ H'|t' u' H' E|t' u' _ H' E]; subst.
  - destruct (IH u' H') as (ub & Pa & Pb & ->). exists ub. repeat split; [now constructor|exact Pb].
  - exfalso. apply Nx. reflexivity.
  - exfalso. apply Nx. reflexivity.
Qed.
Lemma plain_parts : forall t u a b c, plain_text t u -> three_parts t a b c -> exists ub uc, plain_text a a /\ plain_text b ub /\ plain_text c uc /\ u = a ++ ub ++ uc.
Proof.
  intros t u a b c H (-> & Fa & Fc & _). destruct (plain_cut_front a (b ++ c) u Fa H) as (ubc & Pa & Pbc & ->).
  destruct (plain_cut _ _ Pbc b c eq_refl Fc) as (ub & uc & Pb & Pc & ->). now exists ub, uc.
Qed.
Lemma xml_text_app : forall a b, xml_text (a ++ b) = xml_text a ++ xml_text b.
Proof. intros a b. unfold xml_text. now rewrite flat_map_app. Qed.
Lemma plain_app_none : forall a t u, ~ In c_dollar a -> plain_text t u -> plain_text (a ++ t) (a ++ u).
Proof.
  induction a as [|c a IH]; intros t u N0 H; [exact H|]. cbn [app]. apply pn_char; [intros ->; apply N0; now left|]. apply IH; [|exact H]. intros I1. apply N0. now right.
Qed.
Lemma xml_char : forall c, c <> c_dollar -> ~ In c_dollar (xml_text [c]).
Proof.
  intros c Nc I1. rewrite xml_text_cons, app_nil_r in I1. unfold enc_text in I1. destruct (N.eqb c c_amp); [vm_compute in I1; intuition discriminate|]. destruct (N.eqb c c_lt); [vm_compute in I1; intuition discriminate|].
  destruct (N.eqb c c_gt); [vm_compute in I1; intuition discriminate|]. destruct I1 as [->|[]]. now apply Nc.
Qed.
Lemma plain_xml : forall t u, plain_text t u -> plain_text (xml_text t) (xml_text u).
Proof.
  intros t u H. induction H as [|c t u Nc H IH|t u H IH|t u Nr H IH].
  - constructor.
  - change (c :: t) with ([c] ++ t). change (c :: u) with ([c] ++ u). rewrite !xml_text_app. apply plain_app_none; [now apply xml_char|exact IH].
  - rewrite !xml_text_app. exact (pn_two _ _ IH).
  - rewrite !xml_text_app. apply (pn_lone _ _); [|exact IH]. intros (c & v & E & Hc). apply Nr. destruct t as [|x t]; [discriminate E|].
    cbn [L list_ascii_of_string map app] in E. rewrite xml_text_cons in E. destruct (enc_cases x) as [[_ Ex]|(name & Ex & _)]; rewrite Ex in E; cbn [app] in E; injection E as E1 E2.
    + exists x, t. split; [reflexivity|]. now rewrite E1.
    + subst c. destruct Hc as [Hc|[Hc|Hc]]; vm_compute in Hc; discriminate.
Qed.
(** Reading them. *)
Lemma plain_first : forall t u, plain_text t u -> exists t1 s, t = t1 ++ s /\ no_ref t1 s /\
  (s = [] /\ u = t1 \/ exists s' u', s = L "$$" ++ s' /\ plain_text s' u' /\ u = t1 ++ L "$" ++ u').
Proof.
  intros t u H. induction H as [|c t u Nc H (t1 & s & -> & Nr & D)|t u H IH|t u Nf H (t1 & s & -> & Nr & D)].
  - exists [], []. split; [reflexivity|]. split; [|now left]. intros t1 t2 E Ne. symmetry in E. apply app_eq_nil in E. destruct E as [_ ->]. now destruct Ne.
  - exists (c :: t1), s. split; [reflexivity|]. split.
    + intros a b E Ne R. destruct a as [|x a]; cbn [app] in E.
      * subst b. destruct R as (c' & v & E & _). cbn [app] in E. injection E as E _. now apply Nc.
      * injection E as _ E. now apply (Nr a b E Ne).
    + destruct D as [[-> ->]|(s' & u' & -> & P & ->)]; [now left|]. right. exists s', u'. now repeat split.
  - exists [], (L "$$" ++ t). split; [reflexivity|]. split.
    + intros t1 t2 E Ne. symmetry in E. apply app_eq_nil in E. destruct E as [_ ->]. now destruct Ne.
    + right. exists t, u. now repeat split.
  - exists (L "$" ++ t1), s. split; [reflexivity|]. split.
    + intros a b E Ne R. destruct a as [|x a]; cbn [app] in E.
      * subst b. rewrite <- app_assoc in R. now apply Nf.
      * cbn [L list_ascii_of_string map app] in E. injection E as _ E. now apply (Nr a b E Ne).
    + destruct D as [[-> ->]|(s' & u' & -> & P & ->)]; [now left|]. right. exists s', u'. now repeat split.
Qed.
Definition piece_text (p : M_XText.piece) : str := match p with XText _ t => t | XExpr _ _ => [] end.
Definition a_text (p : M_XText.piece) : Prop := match p with XText _ _ => True | XExpr _ _ => False end.
Lemma reads_plain : forall compile n t u, length t <= n -> plain_text t u -> forall ln, exists ps, reads compile ln t ps /\ Forall a_text ps /\ concat (map piece_text ps) = u.
Proof.
  intros compile. induction n as [|n IH]; intros t u Hn H ln.
  - destruct t; [|cbn in Hn; lia]. inversion H. exists []. repeat split; constructor.
  - destruct (plain_first t u H) as (t1 & s & -> & Nr & D).
    assert (R : forall ln, exists ps, reads compile ln s ps /\ Forall a_text ps /\ t1 ++ concat (map piece_text ps) = u).
    { intros l0. destruct D as [[-> ->]|(s' & u' & -> & P & ->)].
      - exists []. split; [constructor|]. split; [constructor|]. apply app_nil_r.
      - destruct (IH s' u') with (ln := l0) as (ps & R & F & E); [rewrite !app_length in Hn; cbn in Hn; lia|exact P|].
        exists (XText l0 (L "$") :: ps). split; [now apply x_dollar|]. split; [now constructor|]. cbn [map piece_text concat]. now rewrite E. }
    destruct t1 as [|c t1]; [destruct (R ln) as (ps & R1 & F & E); exists ps; now repeat split|].
    destruct (R (ln + count_nl (c :: t1))) as (ps & R1 & F & E). exists (XText ln (c :: t1) :: ps). split; [|split; [now constructor|exact E]].
    apply x_text; [discriminate|exact Nr| |exact R1]. destruct D as [[-> _]|(s' & u' & -> & _)]; [now left|right]. exists c_dollar, s'. split; [reflexivity|]. right. now right.
Qed.

(** Escaping and blanks. *)
Lemma xml_spaces : forall a, Forall space a -> xml_text a = a.
Proof.
  intros a F. induction F as [|c a Fc F IH]; [reflexivity|]. rewrite xml_text_cons, IH. destruct (enc_cases c) as [[_ Ec]|(name & Ec & Hc)]; [now rewrite Ec|].
  exfalso. unfold enc_text in Ec. destruct (N.eqb_spec c c_amp) as [->|N1]; [vm_compute in Fc; discriminate|]. destruct (N.eqb_spec c c_lt) as [->|N2]; [vm_compute in Fc; discriminate|].
  destruct (N.eqb_spec c c_gt) as [->|N3]; [vm_compute in Fc; discriminate|]. injection Ec as Ec _. now apply N1.
Qed.
Lemma enc_ends : forall c, ~ space c -> S_Text.stops space (enc_text c) /\ S_Text.stops space (rev (enc_text c)) /\ enc_text c <> [] .
Proof.
  intros c Nc. unfold enc_text. destruct (N.eqb c c_amp); [repeat split; try discriminate; vm_compute; discriminate|]. destruct (N.eqb c c_lt); [repeat split; try discriminate; vm_compute; discriminate|].
  destruct (N.eqb c c_gt); [repeat split; try discriminate; vm_compute; discriminate|]. repeat split; try discriminate; exact Nc.
Qed.
Lemma xml_parts : forall t a b c, three_parts t a b c -> three_parts (xml_text t) a (xml_text b) c.
Proof.
  intros t a b c (-> & Fa & Fc & Nb & S1 & S2). rewrite !xml_text_app, (xml_spaces a Fa), (xml_spaces c Fc). split; [reflexivity|]. split; [exact Fa|]. split; [exact Fc|].
  assert (H1 : xml_text b <> [] /\ S_Text.stops space (xml_text b)).
  { destruct b as [|x b]; [congruence|]. rewrite xml_text_cons. destruct (enc_ends x S1) as (E1 & _ & E3). destruct (enc_text x) as [|y l]; [congruence|]. split; [discriminate|exact E1]. }
  split; [apply H1|]. split; [apply H1|]. destruct (exists_last Nb) as (b' & x & ->). rewrite rev_unit in S2. rewrite xml_text_app, rev_app_distr, xml_text_cons, app_nil_r.
  destruct (enc_ends x S2) as (_ & E2 & E3). destruct (rev (enc_text x)) as [|y l] eqn:E; [|exact E2]. apply (f_equal (@rev _)) in E. rewrite rev_involutive in E. now destruct E3.
Qed.
Lemma xml_strip : forall t, strip (xml_text t) = xml_text (strip t).
Proof.
  intros t. destruct (blank_or_parts t) as [F|(a & b & c & T)]; [now rewrite (xml_spaces t F), (strip_blank t F)|].
  now rewrite (strip_parts _ _ _ _ T), (strip_parts _ _ _ _ (xml_parts _ _ _ _ T)).
Qed.

(** ** Trees without directives *)
Section Static.
Variable autoblocks : list str.
Variable scripts html : bool.
Notation static_tag := (static_tag autoblocks).
Notation static_attr := (static_attr html).
Notation no_content := (no_content scripts html).
Definition raw_texts (texts : list (nat * str)) : list dnode := map (fun x => DText (fst x) (snd x) false) texts.
Definition xml_texts (texts : list (nat * str)) : list dnode := map (fun x => DText (fst x) (xml_text (snd x)) true) texts.

Notation element_text := (element_text html).
Inductive sc (st : bool) : list dnode -> list item -> str -> Prop :=
| sc_nil : sc st [] [] []
| sc_elem : forall ln tag a sorted shown cs is s l is' s',
    static_tag tag -> NoDup (map fst a) -> Permutation a sorted -> StronglySorted by_name sorted -> Forall2 static_attr sorted shown ->
    (no_content tag -> cs = []) -> (cs = [] -> is = []) ->
    sc st cs is s -> sc st l is' s' -> sc st (DElem ln tag a cs :: l) (I_start tag shown :: is ++ I_end tag :: is') (element_text tag shown (is_nil cs) s ++ s')
| sc_text : forall ln t u l is s, shown_text st t u -> sc st l is s -> sc st (DText ln (xml_text t) true :: l) (map I_char u ++ is) (xml_text u ++ s)
| sc_cdata : forall ln ln' texts us l is s, html = false -> Forall2 (shown_text st) (map snd texts) us -> ~ has (L "]]>") (concat us) -> sc st l is s ->
    sc st (DMark ln (L "<![CDATA[") :: raw_texts texts ++ DMark ln' (L "]]>") :: l) (map I_char (concat us) ++ is) (L "<![CDATA[" ++ concat us ++ L "]]>" ++ s)
| sc_comment : forall ln t l is s, prefixb (L "!") t = false -> ~ has (L "--") t -> ~ In 13%N t -> sc st l is s ->
    sc st (DComment ln t :: l) (I_comment (L " " ++ t ++ L " ") :: is) (L "<!-- " ++ t ++ L " -->" ++ s)
| sc_hidden : forall ln t l is s, prefixb (L "!") t = true -> sc st l is s -> sc st (DComment ln t :: l) is s.
Lemma sc_empty : forall st cs is s, sc st cs is s -> cs = [] -> is = [].
Proof. intros st cs is s H ->. now inversion H. Qed.

(** *** Attributes *)
Lemma attr_no_py : forall a shown, Forall2 static_attr a shown -> Forall (fun kv => prefixb (L "py:") (fst kv) = false) a.
Proof. intros a shown F. induction F as [|x y a l H F IH]; constructor; [|exact IH]. destruct H as [k v w H1 H2 H3|k v w H1 H2 H3]; cbn [fst]; [exact H2|].
  unfold bare_in_html in H3. repeat destruct H3 as [<-|H3]; try reflexivity. destruct H3. Qed.
Lemma attr_no_py' : forall a sorted shown, Permutation a sorted -> Forall2 static_attr sorted shown -> Forall (fun kv => prefixb (L "py:") (fst kv) = false) a.
Proof. intros a sorted shown Pm F. apply attr_no_py in F. rewrite Forall_forall in *. intros x I1. apply F. eapply Permutation_in; eassumption. Qed.
Lemma no_py_attr : forall a k, Forall (fun kv : str * str => prefixb (L "py:") (fst kv) = false) a -> prefixb (L "py:") k = true -> has_attr k a = false.
Proof.
  intros a k F P. unfold has_attr. induction F as [|[k' v] a Hp F IH]; [reflexivity|]. cbn [existsb fst]. destruct (seqb_spec k k') as [->|_]; [cbn [fst] in Hp; congruence|exact IH].
Qed.
Lemma no_directive_found : forall a, Forall (fun kv : str * str => prefixb (L "py:") (fst kv) = false) a -> List.find (fun d => has_attr (fst d) a) qdirectives = None.
Proof. intros a F. unfold qdirectives. cbn [List.find fst]. rewrite !(no_py_attr a _ F) by reflexivity. reflexivity. Qed.
Lemma wrap_static : forall fuel ln tag a cs, Forall (fun kv : str * str => prefixb (L "py:") (fst kv) = false) a -> wrap fuel ln tag a cs = DElem ln tag a cs.
Proof. intros fuel ln tag a cs F. destruct fuel; cbn [wrap]; [reflexivity|]. now rewrite no_directive_found. Qed.
Lemma rename_static : forall tag a, prefixb (L "py:") tag = false -> rename tag a = (tag, a).
Proof.
  intros tag a P. unfold rename, qdirective. assert (List.find (fun kv => seqb tag (fst kv)) qdirectives = None) as ->; [|reflexivity].
  destruct (List.find (fun kv => seqb tag (fst kv)) qdirectives) as [[k v]|] eqn:E; [|reflexivity]. apply List.find_some in E. destruct E as [I1 E]. cbn [fst] in E. apply seqb_eq in E. subst k.
  vm_compute in I1. repeat destruct I1 as [I1|I1]; try (injection I1 as <- _; discriminate P). destruct I1.
Qed.
Lemma expand_elem_static : forall ln tag a sorted shown cs, static_tag tag -> Permutation a sorted -> Forall2 static_attr sorted shown -> map expand cs = cs ->
  expand (DElem ln tag a cs) = DElem ln tag a cs.
Proof.
  intros ln tag a sorted shown cs St Pm F E. cbn [expand]. rewrite E. unfold expand_elem. rewrite rename_static by apply St. pose proof (attr_no_py' _ _ _ Pm F) as Fa.
  rewrite (no_py_attr a py_extends Fa eq_refl), andb_false_r. now apply wrap_static.
Qed.

(** *** From events to trees *)
Lemma merge_raw : forall texts run ln' t l, merge_list (Some run) (map merge (raw_texts texts ++ DMark ln' t :: l)) =
  DText (fst (fst run)) (snd (fst run) ++ concat (map snd texts)) (snd run) :: DMark ln' t :: merge_list None (map merge l).
Proof.
  induction texts as [|[lx x] texts IH]; intros [[l0 t0] e0] ln' t l.
  - cbn [raw_texts map app concat fst snd merge merge_list]. now rewrite app_nil_r.
  - cbn [raw_texts map app fst snd merge merge_list concat]. fold (raw_texts texts). rewrite IH. cbn [fst snd]. now rewrite <- app_assoc.
Qed.
Definition no_text_node_first (l : list dnode) : Prop := match l with DText _ _ _ :: _ => False | _ => True end.
Lemma merge_stop : forall l ln t e, no_text_node_first l -> merge_list (Some (ln, t, e)) (map merge l) = DText ln t e :: merge_list None (map merge l).
Proof. intros l ln t0 e H. destruct l as [|n l]; [reflexivity|]. destruct n; try reflexivity. destruct H. Qed.
Lemma merge_texts : forall texts ln t l, no_text_node_first l -> merge_list (Some (ln, xml_text t, true)) (map merge (xml_texts texts ++ l)) =
  DText ln (xml_text (t ++ concat (map snd texts))) true :: merge_list None (map merge l).
Proof.
  induction texts as [|[lx x] texts IH]; intros ln t l H.
  - cbn [xml_texts map app concat]. rewrite app_nil_r. now apply merge_stop.
  - cbn [xml_texts map app fst snd merge merge_list concat]. fold (xml_texts texts). rewrite <- xml_text_app, IH by exact H. now rewrite <- app_assoc.
Qed.
Lemma run_reported : forall run ts, Forall2 text_event run ts -> exists texts, map snd texts = ts /\ forall l es, reported l es -> reported (xml_texts texts ++ l) (run ++ es).
Proof.
  intros run ts F. induction F as [|e t run ts H F (texts & E & R)]; [exists []; split; [reflexivity|]; intros l es R; exact R|].
  destruct H as [ln t|ln name t Hs].
  - exists ((ln, t) :: texts). split; [cbn [map snd]; now rewrite E|]. intros l es Rl. cbn [xml_texts map app fst snd]. fold (xml_texts texts). apply rp_text. now apply R.
  - exists ((ln, t) :: texts). split; [cbn [map snd]; now rewrite E|]. intros l es Rl. cbn [xml_texts map app fst snd]. fold (xml_texts texts). apply rp_entity; [exact Hs|]. now apply R.
Qed.
Lemma reported_first : forall l es, reported l es -> no_text_first es -> no_text_node_first l.
Proof. intros l es R H. destruct R; try exact Logic.I; destruct H. Qed.
Lemma texts_sc : forall st texts us l is s, Forall2 (shown_text st) (map snd texts) us -> sc st l is s -> sc st (xml_texts texts ++ l) (map I_char (concat us) ++ is) (xml_text (concat us) ++ s).
Proof.
  intros st texts. induction texts as [|[ln t] texts IH]; intros us l is s F H; cbn [map snd] in F; inversion F as [|t' u ts' us' Hu F' E1 E2]; subst; [exact H|].
  cbn [xml_texts map app fst snd concat]. fold (xml_texts texts). rewrite map_app, xml_text_app, <- !app_assoc. apply sc_text; [exact Hu|]. now apply IH.
Qed.
Lemma expand_texts : forall texts l, map expand l = l -> map expand (xml_texts texts ++ l) = xml_texts texts ++ l.
Proof. intros texts l E. rewrite map_app, E. f_equal. unfold xml_texts. rewrite map_map. reflexivity. Qed.
Lemma expand_raws : forall texts, map expand (raw_texts texts) = raw_texts texts.
Proof. intros texts. unfold raw_texts. rewrite map_map. reflexivity. Qed.

Lemma merge_list_nil : forall l, merge_list None (map merge l) = [] -> l = [].
Proof.
  assert (G : forall l run, merge_list (Some run) (map merge l) <> []).
  { induction l as [|n l IH]; intros [[ln t] e]; [discriminate|]. destruct n; cbn [map merge merge_list]; try discriminate. apply IH. }
  intros [|n l] E; [reflexivity|]. destruct n; cbn [map merge merge_list] in E; try discriminate E. now apply G in E.
Qed.
Lemma is_nil_iff : forall A B (l : list A) (m : list B), (l = [] <-> m = []) -> is_nil l = is_nil m.
Proof. intros A B [|x l] [|y m] [H1 H2]; try reflexivity; [discriminate (H1 eq_refl)|discriminate (H2 eq_refl)]. Qed.
Lemma says_tree : forall strips joined es is s, document_says autoblocks scripts html strips joined es is s ->
  exists l, reported l es /\ map expand l = l /\ sc strips (if joined then merge_list None (map merge l) else l) is s /\ (es = [] <-> l = []).
Proof.
  intros strips joined es is s H.
  induction H as [|ln ln' tag a sorted shown inner is s es is' s' St ND Pm Ss Fa Nc H1 (cs & R1 & X1 & C1 & Z1) H2 (l & R2 & X2 & C2 & _)|run ts u es is s Nr Fr Nf Su H (l & R & X & C & _)
    |ln ln' texts u es is s Hh Su Nh H (l & R & X & C & _)|ln t es is s Np Nh Nc H (l & R & X & C & _)|ln t es is s Np H (l & R & X & C & _)].
  - exists []. split; [constructor|]. split; [reflexivity|]. split; [destruct joined; constructor|split; reflexivity].
  - exists (DElem ln tag a cs :: l). split; [now constructor|]. split; [cbn [map]; rewrite X2; f_equal; eapply expand_elem_static; eassumption|]. split; [|split; discriminate].
    destruct joined.
    + cbn [map merge merge_list]. rewrite (is_nil_iff _ _ inner (merge_list None (map merge cs))).
      2: { rewrite Z1. split; [intros ->; reflexivity|apply merge_list_nil]. }
      apply (sc_elem strips ln tag a sorted shown); try assumption; [|intros E; exact (sc_empty _ _ _ _ C1 E)]. intros N0. rewrite (proj1 Z1 (Nc N0)). reflexivity.
    + rewrite (is_nil_iff _ _ inner cs Z1). apply (sc_elem strips ln tag a sorted shown); try assumption; [|intros E; exact (sc_empty _ _ _ _ C1 E)]. intros N0. exact (proj1 Z1 (Nc N0)).
  - destruct (run_reported run ts Fr) as (texts & E & Rr). exists (xml_texts texts ++ l). split; [now apply Rr|]. split; [now apply expand_texts|].
    split; [|split; [intros Z; apply app_eq_nil in Z; destruct Z; now destruct Nr|intros Z; apply app_eq_nil in Z; destruct Z as [Z _]; destruct texts; [cbn in E; subst ts; inversion Fr; subst; now destruct Nr|discriminate Z]]].
    unfold shown_texts in Su. destruct joined.
    + destruct texts as [|[l0 t0] texts]; [cbn in E; subst ts; inversion Fr; subst; now destruct Nr|]. cbn [xml_texts map app fst snd merge merge_list]. fold (xml_texts texts).
      rewrite merge_texts by now apply (reported_first l es). apply sc_text; [|exact C]. cbn [map snd] in E. now rewrite <- E in Su.
    + destruct Su as (us & F & ->). apply texts_sc; [now rewrite E|exact C].
  - exists (DMark ln (L "<![CDATA[") :: raw_texts texts ++ DMark ln' (L "]]>") :: l). split; [now apply rp_cdata|].
    split; [cbn [map expand]; f_equal; rewrite map_app, expand_raws; cbn [map expand]; now rewrite X|]. split; [|split; discriminate]. unfold shown_texts in Su. destruct joined.
    + cbn [map merge merge_list]. destruct texts as [|[lx x] texts].
      * cbn [raw_texts map app merge merge_list]. cbn [map concat] in Su. pose proof (sc_cdata strips ln ln' [(0, [])] [u] (merge_list None (map merge l)) is s Hh) as K.
        assert (u = []) as ->. { destruct Su as [_ Su]. destruct strips; [change (strip []) with (@nil char) in Su|]; now inversion Su. }
        apply (sc_cdata strips ln ln' [] [] (merge_list None (map merge l)) is s Hh); [constructor|exact Nh|exact C].
      * cbn [raw_texts map app merge merge_list fst snd]. fold (raw_texts texts). rewrite merge_raw. cbn [fst snd].
        pose proof (sc_cdata strips ln ln' [(lx, x ++ concat (map snd texts))] [u] (merge_list None (map merge l)) is s Hh) as K. cbn [raw_texts map app fst snd concat] in K. rewrite app_nil_r in K.
        apply K; [|exact Nh|exact C]. repeat constructor; apply Su.
    + destruct Su as (us & F & ->). now apply sc_cdata.
  - exists (DComment ln t :: l). split; [now constructor|]. split; [cbn [map expand]; now rewrite X|]. split; [|split; discriminate]. destruct joined; cbn [map merge merge_list]; now apply sc_comment.
  - exists (DComment ln t :: l). split; [now constructor|]. split; [cbn [map expand]; now rewrite X|]. split; [|split; discriminate]. destruct joined; cbn [map merge merge_list]; now apply sc_hidden.
Qed.

(** *** Taking the blanks apart, and off *)
Lemma strip_in : forall t c, In c (strip t) -> In c t.
Proof.
  intros t c I1. destruct (blank_or_parts t) as [F|(x & y & z & T)]; [rewrite (strip_blank t F) in I1; destruct I1|].
  rewrite (strip_parts _ _ _ _ T) in I1. destruct T as (-> & _). apply in_or_app. right. apply in_or_app. now left.
Qed.
Lemma shown_blank : forall t, ~ In 13%N t -> Forall space t -> shown_text true t [].
Proof. intros t N0 F. split; [exact N0|]. rewrite (strip_blank t F). constructor. Qed.
Lemma shown_parts : forall st t u a b c, shown_text st t u -> three_parts t a b c ->
  exists ua ub uc, shown_text st a ua /\ shown_text st b ub /\ shown_text st c uc /\ u = ua ++ ub ++ uc.
Proof.
  intros st t u a b c [N0 P] T. pose proof T as (E & Fa & Fc & Nb & Sb).
  assert (N1 : ~ In 13%N a /\ ~ In 13%N b /\ ~ In 13%N c) by (rewrite E, !in_app_iff in N0; tauto). destruct N1 as (Na & Nbb & Ncc). destruct st.
  - rewrite (strip_parts _ _ _ _ T) in P. exists [], u, []. split; [now apply shown_blank|]. split; [|split; [now apply shown_blank|now rewrite app_nil_r]].
    split; [exact Nbb|]. assert (three_parts b [] b []) as Tb by (split; [now rewrite app_nil_r|]; repeat split; try constructor; try assumption; apply Sb). now rewrite (strip_parts _ _ _ _ Tb).
  - destruct (plain_parts t u a b c P T) as (ub & uc & Pa & Pb & Pc & ->). exists a, ub, uc. repeat split; assumption.
Qed.
Lemma part_static : forall st ln t u l is s, shown_text st t u -> sc st l is s -> sc st (part ln (xml_text t) true ++ l) (map I_char u ++ is) (xml_text u ++ s).
Proof.
  intros st ln t u l is s Su H. destruct t as [|c t].
  - destruct Su as [_ P]. assert (plain_text [] u) as P' by (destruct st; exact P). inversion P'. exact H.
  - assert (part ln (xml_text (c :: t)) true = [DText ln (xml_text (c :: t)) true]) as ->.
    { rewrite xml_text_cons. destruct (enc_cases c) as [[_ Ec]|(name & Ec & _)]; rewrite Ec; reflexivity. }
    cbn [app]. now apply sc_text.
Qed.
Lemma part_raw : forall st ln t u, shown_text st t u -> exists texts us, part ln t false = raw_texts texts /\ Forall2 (shown_text st) (map snd texts) us /\ concat us = u.
Proof.
  intros st ln [|c t] u Su.
  - exists [], []. split; [reflexivity|]. split; [constructor|]. destruct Su as [_ P]. assert (plain_text [] u) as P' by (destruct st; exact P). now inversion P'.
  - exists [(ln, c :: t)], [u]. split; [reflexivity|]. split; [constructor; [exact Su|constructor]|]. apply app_nil_r.
Qed.
Lemma split_raw : forall st ln t u, shown_text st t u -> exists texts us, split_text ln t false = raw_texts texts /\ Forall2 (shown_text st) (map snd texts) us /\ concat us = u.
Proof.
  intros st ln t u Su. destruct (blank_or_parts t) as [F|(a & b & c & T)].
  - rewrite split_blank by exact F. exists [(ln, t)], [u]. split; [reflexivity|]. split; [constructor; [exact Su|constructor]|]. apply app_nil_r.
  - rewrite (split_parts ln t false a b c T). destruct (shown_parts st t u a b c Su T) as (ua & ub & uc & Sa & Sb & Sc & ->).
    destruct (part_raw st ln a ua Sa) as (xs & us & -> & F1 & <-). destruct (part_raw st (ln + count_nl a) b ub Sb) as (ys & vs & -> & F2 & <-). destruct (part_raw st (ln + count_nl (a ++ b)) c uc Sc) as (zs & ws & -> & F3 & <-).
    exists (xs ++ ys ++ zs), (us ++ vs ++ ws). unfold raw_texts. rewrite !map_app, !concat_app. split; [reflexivity|]. split; [|reflexivity]. repeat apply Forall2_app; assumption.
Qed.
Lemma split_raws : forall st texts us, Forall2 (shown_text st) (map snd texts) us ->
  exists texts' us', flat_map extract_child (raw_texts texts) = raw_texts texts' /\ Forall2 (shown_text st) (map snd texts') us' /\ concat us' = concat us.
Proof.
  intros st texts. induction texts as [|[ln t] texts IH]; intros us F; cbn [map snd] in F; inversion F as [|t' u ts' us0 Hu F' E1 E2]; subst; [exists [], []; repeat split; constructor|].
  destruct (IH us0 F') as (ts & vs & E & F1 & C). destruct (split_raw st ln t u Hu) as (t1 & v1 & E1 & F2 & C1). exists (t1 ++ ts), (v1 ++ vs).
  cbn [raw_texts map flat_map fst snd extract_child concat]. fold (raw_texts texts). rewrite E1, E. unfold raw_texts. rewrite !map_app, concat_app, C1, C. split; [reflexivity|]. split; [now apply Forall2_app|reflexivity].
Qed.
Lemma flat_nil : forall l, flat_map extract_child l = [] -> l = [].
Proof.
  intros [|n l] E; [reflexivity|]. exfalso. cbn [flat_map] in E. apply app_eq_nil in E. destruct E as [E _]. destruct n as [ln tag a cs|ln t e| | |]; try discriminate E. cbn [extract_child] in E.
  destruct (blank_or_parts t) as [F|(x & y & z & T)]; [rewrite split_blank in E by exact F; discriminate E|]. rewrite (split_parts ln t e x y z T) in E. destruct T as (_ & _ & _ & Ny & _).
  apply app_eq_nil in E. destruct E as [_ E]. apply app_eq_nil in E. destruct E as [E _]. destruct y; [now destruct Ny|discriminate E].
Qed.
Lemma extract_static : forall st l is s, sc st l is s -> sc st (flat_map extract_child l) is s.
Proof.
  intros st l is s H. induction H as [|ln tag a sorted shown cs is s l is' s' St ND Pm Ss Fa Nc Z H1 IH1 H2 IH2|ln t u l is s Su H IH|ln ln' texts us l is s Hh Ft Nh H IH|ln t l is s Np Nh Nc H IH|ln t l is s Np H IH]; cbn [flat_map].
  - constructor.
  - change (extract_child (DElem ln tag a cs)) with [DElem ln tag a (flat_map extract_child cs)]. cbn [app]. rewrite (is_nil_iff _ _ cs (flat_map extract_child cs)) by (split; [intros ->; reflexivity|apply flat_nil]). apply (sc_elem st ln tag a sorted shown); try assumption.
    + intros N0. now rewrite (Nc N0).
    + intros E. apply Z. now apply flat_nil.
  - cbn [extract_child]. destruct (blank_or_parts t) as [F|(a & b & c & T)].
    + rewrite split_blank by now rewrite (xml_spaces t F). now apply sc_text.
    + rewrite (split_parts ln _ true _ _ _ (xml_parts _ _ _ _ T)). destruct (shown_parts st t u a b c Su T) as (ua & ub & uc & Sa & Sb & Sc & ->). rewrite !map_app, !xml_text_app, <- !app_assoc.
      destruct T as (_ & Fsa & Fsc & _). rewrite <- (xml_spaces a Fsa), <- (xml_spaces c Fsc). apply part_static; [exact Sa|]. apply part_static; [exact Sb|]. now apply part_static.
  - rewrite flat_map_app. cbn [flat_map extract_child extract_spaces app]. destruct (split_raws st texts us Ft) as (ts & vs & E & F & C). rewrite E, <- C. apply sc_cdata; [exact Hh|exact F|now rewrite C|exact IH].
  - now apply sc_comment.
  - now apply sc_hidden.
Qed.
Lemma strip_raws : forall texts us, Forall2 (shown_text true) (map snd texts) us ->
  exists texts', map strip_texts (raw_texts texts) = raw_texts texts' /\ Forall2 (shown_text false) (map snd texts') us.
Proof.
  intros texts. induction texts as [|[ln t] texts IH]; intros us F; cbn [map snd] in F; inversion F as [|t' u ts' us0 [N0 P] F' E1 E2]; subst; [exists []; split; constructor|].
  destruct (IH us0 F') as (ts & E & F1). exists ((ln + count_nl (firstn (length t - length (lstrip t)) t), strip t) :: ts). cbn [raw_texts map fst snd strip_texts]. fold (raw_texts texts). fold (raw_texts ts). rewrite E.
  split; [reflexivity|]. constructor; [|exact F1]. split; [intros I1; apply N0; now apply strip_in|exact P].
Qed.
Lemma strip_static : forall l is s, sc true l is s -> sc false (map strip_texts l) is s.
Proof.
  intros l is s H. induction H as [|ln tag a sorted shown cs is s l is' s' St ND Pm Ss Fa Nc Z H1 IH1 H2 IH2|ln t u l is s [N0 P] H IH|ln ln' texts us l is s Hh Ft Nh H IH|ln t l is s Np Nh Nc H IH|ln t l is s Np H IH]; cbn [map strip_texts].
  - constructor.
  - rewrite (is_nil_iff _ _ cs (map strip_texts cs)) by (destruct cs; split; intros E; try reflexivity; discriminate E). apply (sc_elem false ln tag a sorted shown); try assumption.
    + intros N0. now rewrite (Nc N0).
    + intros E. apply Z. now destruct cs.
  - rewrite xml_strip. apply sc_text; [|exact IH]. split; [intros I1; apply N0; now apply strip_in|exact P].
  - rewrite map_app. cbn [map strip_texts]. destruct (strip_raws texts us Ft) as (ts & -> & F). now apply sc_cdata.
  - now apply sc_comment.
  - now apply sc_hidden.
Qed.

(** ** What they render *)
Variable compile : str -> compiled.
Variable mode : str.
Hypothesis Hmode : prefixb (L "html") mode = html.
Variable py : python.
Hypothesis Htrans : forall t, trans py t = VStr t.
Variables gen user : str -> Prop.
Notation all_say := (all_say compile autoblocks scripts mode).

(** A sequence of statements that shows [s]. *)
Definition shows (ss : list stm) (s : str) : Prop := Forall (user_stm gen user) ss /\ Forall loose ss /\ forall e, exists o, means py ss e = Ok (o, e) /\ render o = s.
Lemma shows_nil : shows [] [].
Proof. repeat split; try constructor. intros e. exists []. now split. Qed.
Lemma shows_app : forall a b s t, shows a s -> shows b t -> shows (a ++ b) (s ++ t).
Proof.
  intros a b s t (U1 & L1 & M1) (U2 & L2 & M2). repeat split; try (apply Forall_app; now split). intros e. destruct (M1 e) as (o1 & E1 & <-). destruct (M2 e) as (o2 & E2 & <-).
  exists (o1 ++ o2). rewrite means_app. unfold then_. rewrite E1. cbn [rbind fst snd]. rewrite E2. cbn [rmap fst snd]. split; [reflexivity|]. apply render_app.
Qed.
Lemma shows_one : forall s t, user_stm gen user s -> loose s -> (forall e, exists o, meaning py s e = Ok (o, e) /\ render o = t) -> shows [s] t.
Proof. intros s t U Lo M. repeat split; try now repeat constructor. intros e. rewrite means_single. apply M. Qed.
Lemma shows_text : forall t, shows [SText t None] t.
Proof. intros t. apply shows_one; [exact Logic.I|exact Logic.I|]. intros e. exists [VStr t]. split; [reflexivity|apply render_str]. Qed.
Lemma shows_trans : forall t, shows [STrans t None] t.
Proof. intros t. apply shows_one; [exact Logic.I|exact Logic.I|]. intros e. exists [VStr t]. split; [|apply render_str]. cbn [meaning]. unfold under. cbn [truthy_guard]. rewrite Htrans. now destruct (strip t). Qed.
Lemma shows_pieces : forall k ps, Forall a_text ps -> shows (map (text_stm k) ps) (concat (map piece_text ps)).
Proof.
  intros k ps F. induction F as [|p ps Hp F IH]; [apply shows_nil|]. cbn [map concat]. change (text_stm k p :: map (text_stm k) ps) with ([text_stm k p] ++ map (text_stm k) ps). apply shows_app; [|exact IH].
  destruct p as [ln t|]; [|destruct Hp]. cbn [text_stm piece_text]. destruct k; try apply shows_text. destruct (forallb is_space t); [apply shows_text|apply shows_trans].
Qed.
Lemma text_shows : forall parent ln t u, parent <> [] -> plain_text t u -> exists ss, text_says compile parent ln t ss /\ shows ss u.
Proof.
  intros parent ln t u Np P. destruct (reads_plain compile (length t) t u (le_n _) P ln) as (ps & R & F & <-).
  assert (D : script_or_style parent \/ ~ script_or_style parent).
  { unfold script_or_style. destruct (seqb_spec parent (L "script")) as [->|N1]; [left; now left|]. destruct (seqb_spec parent (L "style")) as [->|N2]; [left; now right|]. right. intros [E|E]; congruence. }
  destruct D as [D|D].
  - exists (map (text_stm TK_raw) ps). split; [now apply ts_raw|]. now apply shows_pieces.
  - exists (map (text_stm TK_text) ps). split; [now apply ts_text|]. now apply shows_pieces.
Qed.
Lemma raws_show : forall parent texts us, parent <> [] -> Forall2 (shown_text false) (map snd texts) us -> forall prev l ss s,
  all_say true parent [] l (map PcStm ss) -> shows ss s ->
  (texts = [] -> prev = []) -> exists ss', all_say true parent prev (raw_texts texts ++ l) (map PcStm ss') /\ shows ss' (concat us ++ s).
Proof.
  intros parent texts us Np. revert us. induction texts as [|[ln t] texts IH]; intros us F prev l ss s A Sh Hp; cbn [map snd] in F; inversion F as [|t' u ts' us0 [_ Hu] F' E1 E2]; subst; [rewrite (Hp eq_refl); exists ss; now split|].
  destruct (IH us0 F' [] l ss s A Sh (fun _ => eq_refl)) as (ss' & A' & Sh'). destruct (text_shows parent ln t u Np Hu) as (st & T & Sht). exists (st ++ ss'). split.
  - rewrite map_app. cbn [raw_texts map app fst snd]. fold (raw_texts texts). apply al_node; [right; intros []|now apply sy_text|exact A'].
  - cbn [concat]. rewrite <- app_assoc. now apply shows_app.
Qed.

(** *** Attributes *)
Lemma value_escape : forall v, value_text v = escape_str v.
Proof. intros v. rewrite escape_str_enc. reflexivity. Qed.
Lemma in_attr_static : forall v, ~ In 9%N v -> ~ In 10%N v -> ~ In 13%N v -> map in_attr v = v.
Proof.
  intros v N9 N10 N13. induction v as [|c v IH]; [reflexivity|]. cbn [map]. rewrite IH by (intros X; first [apply N13; now right|apply N9; now right|apply N10; now right]). f_equal. unfold in_attr.
  assert (cmem c [9; 10; 13]%N = false) as ->; [|reflexivity]. destruct (cmem c [9; 10; 13]%N) eqn:E; [|reflexivity]. exfalso. unfold cmem in E. apply existsb_exists in E. destruct E as (x & I1 & E). apply N.eqb_eq in E. subst x.
  destruct I1 as [<-|[<-|[<-|[]]]]; [apply N9|apply N10|apply N13]; now left.
Qed.
Lemma attrs_static_written : forall a shown, Forall2 static_attr a shown -> written_attrs shown (attrs_text shown).
Proof.
  intros a shown F. induction F as [|x y a l H F IH]; [constructor|]. unfold attrs_text. cbn [map concat]. destruct H as [k v w Lk _ _ P N9 N10 N13|k v w Lk _ _ P]; unfold attr_text at 1; cbn [fst snd]; rewrite ?value_escape, <- !app_assoc.
  - apply wa_value; [exact Lk| |apply escape_no_quote|exact IH]. rewrite <- (in_attr_static w) at 1 by (intros I1; first [exact (N9 (plain_in _ _ P _ I1))|exact (N10 (plain_in _ _ P _ I1))|exact (N13 (plain_in _ _ P _ I1))]). apply in_attr_text, written_escape.
  - now apply wa_bare.
Qed.
Lemma collect_texts : forall ps, Forall a_text ps -> forall e, exists o, match map (text_stm TK_attr) ps with [] => Ok ([VStr []], e) | _ => means py (map (text_stm TK_attr) ps) e end = Ok (o, e) /\
  collect o = Ok (VStr (concat (map piece_text ps))).
Proof.
  intros ps F e. destruct ps as [|p0 ps0]; [exists [VStr []]; split; reflexivity|].
  assert (G : forall l, Forall a_text l -> means py (map (text_stm TK_attr) l) e = Ok (map (fun p => VStr (piece_text p)) l, e) /\ collect_parts (map (fun p => VStr (piece_text p)) l) = Ok (map piece_text l)).
  { clear. intros l F. induction F as [|p l Hp F [IH1 IH2]]; [split; reflexivity|]. destruct p as [ln t|]; [|destruct Hp]. cbn [map text_stm piece_text]. split.
    - change (SText t None :: map (text_stm TK_attr) l) with ([SText t None] ++ map (text_stm TK_attr) l). rewrite means_app, means_single. unfold then_. cbn [meaning]. unfold under. cbn [truthy_guard rbind fst snd]. now rewrite IH1.
    - cbn [collect_parts]. now rewrite IH2. }
  destruct (G (p0 :: ps0) F) as [G1 G2]. exists (map (fun p => VStr (piece_text p)) (p0 :: ps0)). split; [exact G1|]. unfold collect. now rewrite G2.
Qed.
Lemma empty_attr_spec : forall k, smem k html_empty_attrs = true <-> bare_in_html k.
Proof. intros k. unfold bare_in_html. rewrite smem_In. reflexivity. Qed.
Lemma lower_bare : forall k, bare_in_html k -> lower k = k.
Proof. intros k H. unfold bare_in_html in H. repeat destruct H as [<-|H]; try reflexivity. destruct H. Qed.
Lemma render_static : forall k v w y, static_attr (k, v) y -> plain_text v w -> (match snd y with Some w' => w' = w | None => True end) -> fst y = k -> render_attrs [(k, VStr w)] mode = Ok [attr_text y].
Proof.
  intros k v w y H P Ew Ek. unfold render_attrs. cbn [dup_keys]. cbn [sort_attrs insert_attr flat_map render_attr1 as_bool]. rewrite Hmode.
  assert (D : match smem k html_empty_attrs with true => VStr w | false => VStr w end = VStr w) by now destruct (smem k html_empty_attrs).
  rewrite D. cbn [app]. clear D. remember (k, v) as x eqn:Ex. destruct H as [k' v' w' Lk Np Nb Pw N9 N10 N13|k' v' w' Lk Hh Hb Pw]; injection Ex as -> ->; cbn [fst snd] in *.
  - try subst w'. destruct (html && smem k html_empty_attrs) eqn:Eb; [|unfold attr_text; cbn [fst snd]; rewrite value_escape; reflexivity]. exfalso. apply andb_prop in Eb. destruct Eb as [Eh Eb]. apply Nb. split; [exact Eh|]. now apply empty_attr_spec.
  - rewrite Hh. rewrite (proj2 (empty_attr_spec k) Hb). cbn [andb]. rewrite (lower_bare k Hb). reflexivity.
Qed.
Lemma shows_attr : forall k v y ps, static_attr (k, v) y -> Forall a_text ps -> plain_text v (concat (map piece_text ps)) ->
  (match snd y with Some w' => w' = concat (map piece_text ps) | None => True end) -> fst y = k ->
  shows [SAttr k (map (text_stm TK_attr) ps) None mode] (attr_text y).
Proof.
  intros k v y ps H F P Ew Ek. apply shows_one; [|exact Logic.I|].
  - cbn [user_stm]. split; [exact Logic.I|]. clear - F. induction F as [|p ps Hp F IH]; [exact Logic.I|]. destruct p; [|destruct Hp]. split; [exact Logic.I|exact IH].
  - intros e. cbn [meaning]. unfold under. cbn [truthy_guard].
    change (exists o, rbind (match map (text_stm TK_attr) ps with [] => Ok ([VStr []], e) | _ => means py (map (text_stm TK_attr) ps) e end)
      (fun oe => rbind (collect (fst oe)) (fun x => rmap (fun chunks => (map VStr chunks, e)) (render_attrs [(k, x)] mode))) = Ok (o, e) /\ render o = attr_text y).
    destruct (collect_texts ps F e) as (o & -> & C). cbn [rbind fst]. rewrite C. cbn [rbind]. rewrite (render_static k v _ y H P Ew Ek). exists [VStr (attr_text y)]. split; [reflexivity|apply render_str].
Qed.
Lemma special_py : forall k, special_attr k -> prefixb (L "py:") k = true.
Proof. intros k [->|[->| ->]]; reflexivity. Qed.
Lemma static_attr_plain : forall k v y, static_attr (k, v) y -> fst y = k /\ exists w, plain_text v w /\ match snd y with Some w' => w' = w | None => True end.
Proof.
  intros k v y H. remember (k, v) as x eqn:Ex. destruct H as [k' v' w Lk Np Nb Pw N9 N10 N13|k' v' w Lk Hh Hb Pw]; injection Ex as -> ->; cbn [fst snd]; (split; [reflexivity|]); exists w; now split.
Qed.
Lemma attrs_show : forall ln a shown, Forall2 static_attr a shown -> exists ss, attrs_say compile mode ln None a ss /\ shows ss (attrs_text shown).
Proof.
  intros ln a shown F. pose proof (attr_no_py _ _ F) as Np. induction F as [|[k v] y a l H F IH]; [exists []; split; [constructor|apply shows_nil]|].
  apply Forall_cons_iff in Np. destruct Np as [Hp Np]. destruct (IH Np) as (ss & A & Sh). destruct (static_attr_plain k v y H) as (Ek & w & P & Ew).
  destruct (reads_plain compile (length v) v w (le_n _) P ln) as (ps & R & Ft & E). exists (SAttr k (map (text_stm TK_attr) ps) None mode :: ss). split.
  - apply as_attr; [|exact R|exact A]. intros Sp. apply special_py in Sp. cbn [fst] in Hp. congruence.
  - change (SAttr k (map (text_stm TK_attr) ps) None mode :: ss) with ([SAttr k (map (text_stm TK_attr) ps) None mode] ++ ss). apply (shows_app _ _ (attr_text y) (attrs_text l)); [|exact Sh]. apply (shows_attr k v); try assumption; now rewrite E.
Qed.
Lemma absent_py : forall k (a : list (str * str)), Forall (fun kv => prefixb (L "py:") (fst kv) = false) a -> prefixb (L "py:") k = true -> absent k a.
Proof.
  intros k a F P I1. apply in_map_iff in I1. destruct I1 as ([k' v] & E & I1). cbn [fst] in E. subst k'. rewrite Forall_forall in F. specialize (F _ I1). cbn [fst] in F. congruence.
Qed.

(** *** No carriage return *)
Lemma no13_escape : forall f t, (forall c, ~ In 13%N (f c) \/ f c = [c]) -> ~ In 13%N t -> ~ In 13%N (flat_map f t).
Proof. intros f t H N0 I1. apply in_flat_map in I1. destruct I1 as (c & Ic & I1). destruct (H c) as [Hc|Hc]; [now apply Hc|]. rewrite Hc in I1. destruct I1 as [->|[]]. now apply N0. Qed.
Lemma no13_xml : forall t, ~ In 13%N t -> ~ In 13%N (xml_text t).
Proof.
  intros t. apply no13_escape. intros c. destruct (N.eqb c c_amp); [left; vm_compute; intuition discriminate|]. destruct (N.eqb c c_lt); [left; vm_compute; intuition discriminate|]. destruct (N.eqb c c_gt); [left; vm_compute; intuition discriminate|]. now right.
Qed.
Lemma no13_enc : forall t, ~ In 13%N t -> ~ In 13%N (escape_str t).
Proof.
  intros t. rewrite escape_str_enc. apply no13_escape. intros c. unfold enc. destruct (N.eqb c c_amp); [left; vm_compute; intuition discriminate|]. destruct (N.eqb c c_lt); [left; vm_compute; intuition discriminate|]. destruct (N.eqb c c_gt); [left; vm_compute; intuition discriminate|]. destruct (N.eqb c c_dq); [left; vm_compute; intuition discriminate|]. now right.
Qed.
Lemma no13_app : forall a b, ~ In 13%N a -> ~ In 13%N b -> ~ In 13%N (a ++ b).
Proof. intros a b Na Nb I1. apply in_app_or in I1. tauto. Qed.
Lemma no13_name : forall k, legal_name k -> ~ In 13%N k.
Proof. intros k [_ H] I1. rewrite forallb_forall in H. apply H in I1. vm_compute in I1. discriminate. Qed.
Lemma no13_attrs : forall a shown, Forall2 static_attr a shown -> ~ In 13%N (attrs_text shown).
Proof.
  intros a shown F. induction F as [|x y a l H F IH]; [intros []|]. unfold attrs_text. cbn [map concat]. apply no13_app; [|exact IH].
  destruct H as [k v w Lk _ _ P N9 N10 N13|k v w Lk _ _ P]; unfold attr_text; cbn [fst snd]; rewrite ?value_escape; (apply no13_app; [vm_compute; intuition discriminate|]).
  - apply no13_app; [now apply no13_name|]. apply no13_app; [vm_compute; intuition discriminate|]. apply no13_app; [|vm_compute; intuition discriminate]. apply no13_enc. intros I1. exact (N13 (plain_in _ _ P _ I1)).
  - now apply no13_name.
Qed.
(** *** Elements *)
Lemma al_text_like : forall marks parent prev n l ss ss', marks = false \/ ~ is_mark n -> says compile autoblocks scripts mode parent prev n (map PcStm ss) ->
  all_say marks parent (name_of n) l (map PcStm ss') -> all_say marks parent prev (n :: l) (map PcStm (ss ++ ss')).
Proof. intros. rewrite map_app. now apply al_node. Qed.
Lemma html_mode : is_html mode <-> html = true.
Proof. unfold is_html. now rewrite Hmode. Qed.
Lemma void_legal : forall tag, S_Markup.void tag \/ ~ S_Markup.void tag.
Proof. intros tag. unfold S_Markup.void. match goal with |- In tag ?l \/ _ => destruct (smem tag l) eqn:E; [left; now apply smem_In|right; now apply smem_notIn] end. Qed.
Lemma voidb_iff : forall tag, voidb tag = true <-> S_Markup.void tag.
Proof. intros tag. unfold voidb, S_Markup.void. apply smem_In. Qed.
Lemma elem_shows : forall parent prev ln tag a sorted shown cs is s,
  static_tag tag -> NoDup (map fst a) -> Permutation a sorted -> StronglySorted by_name sorted -> Forall2 static_attr sorted shown ->
  (forall parent prev, parent <> [] -> exists ss, all_say true parent prev cs (map PcStm ss) /\ shows ss s /\ written html is s /\ ~ In 13%N s) ->
  (no_content tag -> cs = []) -> (cs = [] -> is = [] /\ s = []) ->
  exists ss, says compile autoblocks scripts mode parent prev (DElem ln tag a cs) (map PcStm ss) /\ shows ss (element_text tag shown (is_nil cs) s) /\
    written html (I_start tag shown :: is ++ [I_end tag]) (element_text tag shown (is_nil cs) s) /\ ~ In 13%N (element_text tag shown (is_nil cs) s).
Proof.
  intros parent prev ln tag a sorted shown cs is s (Lt & Nb & Np & Na) ND Pm Ss Fs IH Hno Hnil.
  destruct (attrs_show ln sorted shown Fs) as (sa & Sa & Sha). pose proof (attrs_static_written sorted shown Fs) as Wa. pose proof (no13_attrs sorted shown Fs) as Na13.
  pose proof (attr_no_py' _ _ _ Pm Fs) as Fa. assert (Nc : no_content_attr a) by (left; now apply absent_py).
  assert (Nt : ~ In 13%N tag) by now apply no13_name.
  assert (Say : forall rest, rest_says compile autoblocks scripts mode ln tag a None cs (map PcStm rest) ->
    says compile autoblocks scripts mode parent prev (DElem ln tag a cs) (map PcStm (([SText (L "<" ++ tag) None] ++ sa) ++ rest))).
  { intros rest R. cbn [app map]. rewrite map_app. change (map PcStm sa ++ map PcStm rest) with (map PcStm sa ++ map PcStm [] ++ map PcStm rest). eapply sy_elem; try eassumption.
    - apply tc_none. now apply absent_py.
    - apply ma_none. left. now apply absent_py. }
  assert (Head : shows ([SText (L "<" ++ tag) None] ++ sa) ((L "<" ++ tag) ++ attrs_text shown)) by (apply shows_app; [apply shows_text|exact Sha]).
  assert (N1 : ~ In 13%N ((L "<" ++ tag) ++ attrs_text shown)) by (apply no13_app; [apply no13_app; [vm_compute; intuition discriminate|exact Nt]|exact Na13]).
  destruct cs as [|c0 cs0].
  - destruct (Hnil eq_refl) as [-> ->]. cbn [app is_nil].
    assert (G : forall t, closes mode tag t -> element_text tag shown true [] = ((L "<" ++ tag) ++ attrs_text shown) ++ t -> written html [I_start tag shown; I_end tag] (((L "<" ++ tag) ++ attrs_text shown) ++ t) -> ~ In 13%N t ->
      exists ss, says compile autoblocks scripts mode parent prev (DElem ln tag a []) (map PcStm ss) /\ shows ss (element_text tag shown true []) /\ written html [I_start tag shown; I_end tag] (element_text tag shown true []) /\
        ~ In 13%N (element_text tag shown true [])).
    { intros t Cl -> W Nt13. exists (([SText (L "<" ++ tag) None] ++ sa) ++ [SText t None]). split; [|split; [apply shows_app; [exact Head|apply shows_text]|]].
      - apply Say. cbn [map]. now apply rs_empty.
      - split; [exact W|]. now apply no13_app. }
    assert (G2 : ~ (html = true /\ S_Markup.void tag) -> (html = false -> tag = L "script") -> closes mode tag (L "></" ++ tag ++ L ">") ->
      exists ss, says compile autoblocks scripts mode parent prev (DElem ln tag a []) (map PcStm ss) /\ shows ss (element_text tag shown true []) /\ written html [I_start tag shown; I_end tag] (element_text tag shown true []) /\
        ~ In 13%N (element_text tag shown true [])).
    { intros Nv Nx Cl. apply (G (L "></" ++ tag ++ L ">") Cl).
      - unfold S_Static.element_text. cbn [andb]. rewrite <- !app_assoc. do 3 f_equal.
        assert (E1 : html && voidb tag = false). { destruct html; [|reflexivity]. destruct (voidb tag) eqn:Ev; [|reflexivity]. apply voidb_iff in Ev. tauto. }
        assert (E2 : negb html && negb (seqb tag (L "script")) = false). { destruct html; [reflexivity|]. rewrite (Nx eq_refl). reflexivity. }
        rewrite E1, E2. reflexivity.
      - assert (W : written html (I_start tag shown :: [] ++ I_end tag :: []) (L "<" ++ tag ++ attrs_text shown ++ L ">" ++ [] ++ L "</" ++ tag ++ L ">" ++ [])).
        { destruct (rawb_cases html tag) as [[Hh Hr]|Nr]; [|apply w_elem; try assumption; constructor]. apply (w_raw html tag shown (attrs_text shown) [] [] []); try assumption; try constructor; intros (x & y & Ex); destruct x; discriminate. }
        cbn [app] in W. rewrite <- !app_assoc. cbn [app] in W |- *. rewrite ?app_nil_r in W. exact W.
      - apply no13_app; [vm_compute; intuition discriminate|]. apply no13_app; [exact Nt|vm_compute; intuition discriminate]. }
    destruct (bool_dec html true) as [Eh|Eh].
    + assert (Hh : is_html mode) by now apply html_mode. destruct (void_legal tag) as [V|V].
      * apply (G (L ">")); [now apply cl_void| |rewrite <- (app_nil_r (L ">")), <- !app_assoc; now apply w_void; [| |exact Wa|constructor]|vm_compute; intuition discriminate].
        unfold S_Static.element_text. rewrite Eh, (proj2 (voidb_iff tag) V). cbn [andb]. now rewrite <- !app_assoc.
      * apply G2; [tauto|rewrite Eh; discriminate|now apply cl_html].
    + apply not_true_is_false in Eh. assert (Hh : ~ is_html mode) by (rewrite html_mode, Eh; discriminate). destruct (seqb_spec tag (L "script")) as [Es|Nscr].
      * apply G2; [rewrite Eh; intros [X _]; discriminate X|intros _; exact Es|now apply cl_script].
      * apply (G (L "/>")); [now apply cl_xml| |rewrite <- (app_nil_r (L "/>")), <- !app_assoc; apply w_empty; try assumption; constructor|vm_compute; intuition discriminate].
        unfold S_Static.element_text. rewrite Eh. cbn [andb negb]. destruct (seqb_spec tag (L "script")) as [X|_]; [contradiction|]. cbn [negb]. now rewrite <- !app_assoc.
  - destruct (IH tag [] (proj1 Lt)) as (sc0 & A & Sh & W & N0). assert (Nno : ~ no_content tag) by (intros X; discriminate (Hno X)). unfold S_Static.no_content in Nno.
    assert (Et : element_text tag shown (is_nil (c0 :: cs0)) s = ((L "<" ++ tag) ++ attrs_text shown) ++ L ">" ++ s ++ L "</" ++ tag ++ L ">") by (unfold S_Static.element_text; cbn [is_nil andb]; now rewrite <- !app_assoc).
    rewrite Et. exists (([SText (L "<" ++ tag) None] ++ sa) ++ [SText (L ">") None] ++ sc0 ++ [SText (L "</" ++ tag ++ L ">") None]).
    split; [|split; [apply shows_app; [exact Head|apply shows_app; [apply shows_text|apply shows_app; [exact Sh|apply shows_text]]]|]].
    + apply Say. cbn [app map]. rewrite map_app. cbn [map]. apply rs_children; [exact Nc|discriminate|tauto|rewrite html_mode; tauto|exact A].
    + split.
      * rewrite <- (app_nil_r (L "</" ++ tag ++ L ">")), <- !app_assoc. apply w_elem; try assumption; [tauto|unfold script_or_style in Nno; unfold raw; tauto|constructor].
      * apply no13_app; [exact N1|].
        apply no13_app; [vm_compute; intuition discriminate|]. apply no13_app; [exact N0|]. apply no13_app; [vm_compute; intuition discriminate|]. apply no13_app; [exact Nt|vm_compute; intuition discriminate].
Qed.
Lemma no13_shown : forall ts us, Forall2 (shown_text false) ts us -> ~ In 13%N (concat us).
Proof. intros ts us F. induction F as [|t u ts us [N0 P] F IH]; [intros []|]. cbn [concat]. apply no13_app; [|exact IH]. intros I1. exact (N0 (plain_in _ _ P _ I1)). Qed.
Lemma content_shows : forall l is s, sc false l is s -> forall parent prev, parent <> [] ->
  exists ss, all_say true parent prev l (map PcStm ss) /\ shows ss s /\ written html is s /\ ~ In 13%N s.
Proof.
  intros l is s H. induction H as [|ln tag a sorted shown cs is s l is' s' St ND Pm Ss Fa Nc Z H1 IH1 H2 IH2|ln t u l is s [N0 P] H IH|ln ln' texts us l is s Hh Ft Nh H IH|ln t l is s Np Nh Nc H IH|ln t l is s Np H IH]; intros parent prev Npar.
  - exists []. split; [constructor|]. split; [apply shows_nil|]. split; [constructor|intros []].
  - destruct (elem_shows parent prev ln tag a sorted shown cs is s St ND Pm Ss Fa IH1 Nc) as (s1 & A1 & Sh1 & W1 & N1); [intros ->; inversion H1; now split|].
    destruct (IH2 parent tag Npar) as (s2 & A2 & Sh2 & W2 & N2). exists (s1 ++ s2). split; [apply al_text_like; [right; intros []|exact A1|exact A2]|].
    split; [now apply shows_app|]. split; [|now apply no13_app]. pose proof (written_app html _ _ W1 _ _ W2) as W. cbn [app] in W. rewrite <- app_assoc in W. exact W.
  - destruct (text_shows parent ln (xml_text t) (xml_text u) Npar (plain_xml t u P)) as (s1 & T & Sh1).
    destruct (IH parent [] Npar) as (s2 & A2 & Sh2 & W2 & N2). exists (s1 ++ s2). split; [apply al_text_like; [right; intros []|now apply sy_text|exact A2]|].
    split; [now apply shows_app|]. split; [apply written_app; [apply written_of_text, written_xml|exact W2]|]. apply no13_app; [|exact N2]. apply no13_xml. intros I1. exact (N0 (plain_in _ _ P _ I1)).
  - destruct (IH parent [] Npar) as (s2 & A2 & Sh2 & W2 & N2).
    destruct (raws_show parent texts us Npar Ft [] (DMark ln' (L "]]>") :: l) ([SText (L "]]>") None] ++ s2) (L "]]>" ++ s)) as (s3 & A3 & Sh3); [cbn [app map]; now apply al_mark|apply shows_app; [apply shows_text|exact Sh2]|reflexivity|].
    exists ([SText (L "<![CDATA[") None] ++ s3). split; [cbn [app map]; now apply al_mark|].
    split; [apply shows_app; [apply shows_text|exact Sh3]|]. split; [now apply w_cdata|]. apply no13_app; [vm_compute; intuition discriminate|]. apply no13_app; [now apply (no13_shown _ _ Ft)|]. apply no13_app; [vm_compute; intuition discriminate|exact N2].
  - destruct (IH parent [] Npar) as (s2 & A2 & Sh2 & W2 & N2). exists ([SText (L "<!-- " ++ t ++ L " -->") None] ++ s2).
    assert (E : L "<!-- " ++ t ++ L " -->" ++ s = (L "<!-- " ++ t ++ L " -->") ++ s) by now rewrite <- !app_assoc. rewrite E.
    split; [apply al_text_like; [right; intros []|now apply sy_comment|exact A2]|]. split; [apply shows_app; [apply shows_text|exact Sh2]|]. split.
    + pose proof (comment_written html t Nh) as W. exact (written_app html _ _ W _ _ W2).
    + apply no13_app; [|exact N2]. apply no13_app; [vm_compute; intuition discriminate|]. apply no13_app; [exact Nc|vm_compute; intuition discriminate].
  - destruct (IH parent [] Npar) as (s2 & A2 & Sh2 & W2 & N2). exists ([] ++ s2). split; [apply al_text_like; [right; intros []|now apply sy_hidden|exact A2]|]. now split.
Qed.
End Static.

(** ** Whole documents *)
Lemma comments_reported : forall pre, Forall comment_event pre -> exists l, Forall (fun n => no_comment n = false) l /\ forall l' es, reported l' es -> reported (l ++ l') (pre ++ es).
Proof.
  intros pre F. induction F as [|e pre He F (l & Fl & H)]; [exists []; split; [constructor|]; intros l' es R; exact R|]. destruct e; try destruct He.
  exists (DComment ln text :: l). split; [constructor; [reflexivity|exact Fl]|]. intros l' es R. cbn [app]. apply rp_comment. now apply H.
Qed.
Lemma comments_dropped : forall l, Forall (fun n => no_comment n = false) l -> filter no_comment l = [].
Proof. intros l F. induction F as [|n l Hn F IH]; [reflexivity|]. cbn [filter]. now rewrite Hn. Qed.
Lemma no_comment_kept : forall f n, (forall ln t, f (DComment ln t) = DComment ln t) -> no_comment n = false -> f n = n.
Proof. intros f n H E. destruct n; try discriminate E. apply H. Qed.
Lemma comments_same : forall l, Forall (fun n => no_comment n = false) l -> map extract_spaces l = l.
Proof. intros l F. induction F as [|n l Hn F IH]; [reflexivity|]. cbn [map]. rewrite IH, (no_comment_kept extract_spaces n) by (exact Hn || reflexivity). reflexivity. Qed.

Lemma comments_same' : forall l, Forall (fun n => no_comment n = false) l -> map strip_texts l = l.
Proof. intros l F. induction F as [|n l Hn F IH]; [reflexivity|]. cbn [map]. rewrite IH, (no_comment_kept strip_texts n) by (exact Hn || reflexivity). reflexivity. Qed.
(** The root after the passes. *)
Lemma strips_root : forall autoblocks scripts html (strips : bool) pre post ln tag a cs is s,
  Forall (fun n => no_comment n = false) pre -> Forall (fun n => no_comment n = false) post -> sc autoblocks scripts html strips cs is s ->
  exists cs', sc autoblocks scripts html false cs' is s /\ (cs' = [] <-> cs = []) /\
    filter no_comment (if strips then map strip_texts (pre ++ DElem ln tag a cs :: post) else pre ++ DElem ln tag a cs :: post) = [DElem ln tag a cs'].
Proof.
  intros autoblocks scripts html strips pre post ln tag a cs is s Fp Fq C.
  assert (Fl : forall cs', filter no_comment (pre ++ DElem ln tag a cs' :: post) = [DElem ln tag a cs']) by (intros cs'; rewrite filter_app; cbn [filter no_comment]; now rewrite (comments_dropped _ Fp), (comments_dropped _ Fq)).
  destruct strips.
  - exists (map strip_texts cs). split; [now apply strip_static|]. split; [destruct cs; split; intros E; try reflexivity; discriminate E|].
    rewrite map_app. cbn [map strip_texts]. rewrite (comments_same' pre Fp), (comments_same' post Fq). apply Fl.
  - exists cs. split; [exact C|]. split; [reflexivity|]. apply Fl.
Qed.
Lemma transform_static : forall autoblocks scripts html strips dtd pre post ln tag a sorted shown cs is s,
  Forall (fun n => no_comment n = false) pre -> Forall (fun n => no_comment n = false) post ->
  static_tag autoblocks tag -> Permutation a sorted -> Forall2 (static_attr html) sorted shown -> map expand cs = cs ->
  sc autoblocks scripts html strips (match pre with [] => merge_list None (map merge cs) | _ => cs end) is s -> exists cs', sc autoblocks scripts html false cs' is s /\ (cs = [] <-> cs' = []) /\
    filter no_comment (d_children (transform strips (Document dtd (pre ++ DElem ln tag a cs :: post)))) = [DElem ln tag a cs'].
Proof.
  intros autoblocks scripts html strips dtd pre post ln tag a sorted shown cs is s Fp Fq St Pm Fa X C. unfold transform. cbn [d_dtd d_children].
  apply extract_static in C. destruct pre as [|n pre].
  - destruct (strips_root autoblocks scripts html strips [] post ln tag a _ is s Fp Fq C) as (cs' & C' & Z & Fl). exists cs'. split; [exact C'|]. split; [rewrite Z; split; [intros ->; reflexivity|intros E; apply flat_nil in E; now apply merge_list_nil]|].
    cbn [app on_first map]. rewrite (expand_elem_static autoblocks html ln tag a sorted shown cs St Pm Fa X). rewrite comments_same by exact Fq. cbn [merge]. rewrite extract_elem. exact Fl.
  - destruct (strips_root autoblocks scripts html strips (n :: pre) post ln tag a _ is s Fp Fq C) as (cs' & C' & Z & Fl). exists cs'. split; [exact C'|]. split; [rewrite Z; split; [intros ->; reflexivity|apply flat_nil]|].
    cbn [app on_first]. pose proof Fp as Fp'. apply Forall_cons_iff in Fp'. destruct Fp' as [Hn Fp'].
    rewrite (no_comment_kept expand n) by (exact Hn || reflexivity). rewrite (no_comment_kept merge n) by (exact Hn || reflexivity).
    change (n :: pre ++ DElem ln tag a cs :: post) with ((n :: pre) ++ DElem ln tag a cs :: post). rewrite map_app, (comments_same (n :: pre)) by exact Fp.
    change (map extract_spaces (DElem ln tag a cs :: post)) with (extract_spaces (DElem ln tag a cs) :: map extract_spaces post). rewrite (comments_same post) by exact Fq. rewrite extract_elem. exact Fl.
Qed.
Lemma assemble_stms : forall ss, Forall loose ss -> assemble (map PcStm ss) = Some ss.
Proof. intros ss F. rewrite <- (app_nil_r (map PcStm ss)), assemble_loose by exact F. cbn [assemble option_map]. now rewrite app_nil_r. Qed.

Theorem static_renders : forall expat compile helper mode (frag : bool) autoblocks scripts html strips source dtd src es is s (line : str) py (gen user : str -> Prop) e,
  parser_source source = (dtd, src) -> expat src = Ok es -> static_document autoblocks scripts html strips es is s ->
  (html = true <-> is_html (rendering_mode mode dtd)) -> (if frag then line = [] else doctype_line (rendering_mode mode dtd) dtd line) ->
  (forall i, gen (helper i)) -> hygienic py gen user -> (forall t, trans py t = VStr t) ->
  exists body, xml_template expat compile helper mode frag autoblocks scripts strips source = Ok (TemplateNode 0 [] [NDef 0 false (L "__main__()") body]) /\
    rmap (fun r => (render (fst (fst r)), snd (fst r), snd r)) (exec_body py (programs body) e [] []) = Ok (line ++ s, [], []) /\
    written html is s /\ read html (line_ends s) = Some is.
Proof.
  intros expat compile helper mode frag autoblocks scripts html strips source dtd src es is s line py gen user e Ps Ex D Hh Hl Hg Hy Ht.
  destruct D as [pre post ln ln' tag a sorted shown inner is s Fp Fq St ND Pm Ss Fa Nc H]. destruct (says_tree _ _ _ _ _ _ _ _ H) as (cs & R & X & C & Z).
  destruct (comments_reported pre Fp) as (lp & Flp & Rp). destruct (comments_reported post Fq) as (lq & Flq & Rq). specialize (Rq [] [] rp_nil). rewrite !app_nil_r in Rq.
  pose proof (Rp _ _ (rp_elem ln ln' tag a cs inner lq post R Rq)) as Rall.
  assert (B : build (pre ++ EStart ln tag a :: inner ++ EEnd ln' tag :: post) = Ok (lp ++ DElem ln tag a cs :: lq)).
  { apply build_reported; [exact Rall|]. apply Forall_app. split; [|constructor; [exact Logic.I|]]; (eapply Forall_impl; [|eassumption]); intros [] E; try exact Logic.I; discriminate E. }
  assert (Same : match pre with [] => true | _ => false end = match lp with [] => true | _ => false end).
  { clear - Fp Flp Rp. specialize (Rp [] [] rp_nil). rewrite !app_nil_r in Rp. destruct pre, lp; try reflexivity; exfalso; inversion Rp. }
  assert (C1 : sc autoblocks scripts html strips (match lp with [] => merge_list None (map merge cs) | _ => cs end) is s) by (rewrite Same in C; destruct lp; exact C).
  destruct (transform_static autoblocks scripts html strips dtd lp lq ln tag a sorted shown cs is s Flp Flq St Pm Fa X C1) as (cs' & C' & Z' & Fl).
  assert (Hm : prefixb (L "html") (rendering_mode mode dtd) = html).
  { unfold is_html in Hh. destruct html, (prefixb (L "html") (rendering_mode mode dtd)); try reflexivity; [now apply Hh|symmetry; now apply Hh]. }
  destruct (elem_shows autoblocks scripts html compile (rendering_mode mode dtd) Hm py gen user [] [] ln tag a sorted shown cs' is s St ND Pm Ss Fa) as (ss & Sy & (U & Lo & M) & W & N0).
  { exact (content_shows autoblocks scripts html compile (rendering_mode mode dtd) Hm py Ht gen user cs' is s C'). }
  { intros N0. apply Z', Z. now apply Nc. }
  { intros ->. inversion C'; now split. }
  rewrite (is_nil_iff _ _ inner cs') by (rewrite Z; exact Z').
  destruct (document_renders compile helper autoblocks scripts (rendering_mode mode dtd) py gen user frag _ _ _ ss line e Hg Hy Fl Sy (assemble_stms ss Lo) U Hl) as (body & Ec & Er).
  exists body. split; [|split; [|split; [exact W|]]].
  - unfold xml_template. rewrite Ps, Ex. cbn [rbind]. rewrite B. cbn [rbind]. exact Ec.
  - rewrite Er. destruct (M e) as (o & -> & Eo). cbn [rmap fst snd]. rewrite <- Eo. reflexivity.
  - rewrite line_ends_none by exact N0. now apply read_written.
Qed.
