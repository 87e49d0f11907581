(** * What is wrong with a document *)

From Coq Require Import Ascii String List Arith NArith ZArith Bool Lia Permutation.
From Verif Require Import PyStr PyStrLemmas M_Values M_IR M_Text M_XText S_XText P_XText P_XText2 M_Entities M_Dom M_XCompile S_XDoc S_XFun P_Dom P_XDoc P_XDoc2 P_XFun P_XFun2 S_XPlace.
From Verif Require P_Dom2 P_Values.
Import ListNotations.
Open Scope list_scope.

Lemma bind_raise : forall A B (m : M A) (f : A -> M B) s e, bind m f s = Raise e ->
  m s = Raise e \/ exists a s1, m s = Ok (a, s1) /\ f a s1 = Raise e.
Proof. intros A B m f s e E. unfold bind in E. destruct (m s) as [[a s1]|x]; [right; now exists a, s1|left; cbn [rbind] in E; congruence]. Qed.
Lemma lift_ok : forall A (r : result A) s a s', lift r s = Ok (a, s') -> r = Ok a /\ s' = s.
Proof. intros A [x|x] s a s' E; unfold lift in E; cbn [rmap] in E; [split; congruence|discriminate]. Qed.
Lemma lift_raise : forall A (r : result A) s e, lift r s = Raise e -> r = Raise e.
Proof. intros A [x|x] s e E; unfold lift in E; cbn [rmap] in E; [discriminate|congruence]. Qed.

Lemma method_known : forall tag m d, In (d, m) methods -> directive tag d -> method_of tag = m.
Proof.
  intros tag m d I1 D. unfold method_of. rewrite (directive_py _ _ D), (directive_last _ _ D). clear - I1. cbn [In methods] in I1.
  repeat (destruct I1 as [I1|I1]; [assert (d = fst (d, m)) as -> by reflexivity; rewrite <- I1; assert (m = snd (d, m)) as -> by reflexivity; rewrite <- I1; reflexivity|]). destruct I1.
Qed.
Lemma method_plain_conv : forall tag, plain_tag tag -> method_of tag = KXml.
Proof.
  intros tag Pl. destruct (method_is tag) as [_|d m D I1 Ne]; [reflexivity|]. exfalso. apply (Pl d D).
  unfold known_directives, leaf_directives, inner_directives. cbn [app]. cbn [In methods] in I1.
  repeat (destruct I1 as [I1|I1]; [first [congruence|left; congruence|do 1 right; left; congruence|do 2 right; left; congruence|do 3 right; left; congruence|do 4 right; left; congruence|do 5 right; left; congruence|do 6 right; left; congruence|do 7 right; left; congruence|do 8 right; left; congruence|do 9 right; left; congruence|do 10 right; left; congruence|do 11 right; left; congruence|do 12 right; left; congruence|do 13 right; left; congruence|do 14 right; left; congruence|do 15 right; left; congruence|do 16 right; left; congruence|do 17 right; left; congruence]|]). destruct I1.
Qed.

(** ** Parents *)
Definition alike (p p' : parent_node) : Prop :=
  match p, p' with
  | InDocument, InDocument => True
  | InElement tag a, InElement tag' a' => tag = tag' /\ has_attr (L "py:switch") a = has_attr (L "py:switch") a'
  | _, _ => False
  end.
Lemma alike_refl : forall p, alike p p. Proof. intros [|tag a]; cbn; auto. Qed.
Lemma has_removed : forall k k' a, k <> k' -> has_attr k (remove_attr k' a) = has_attr k a.
Proof.
  intros k k' a Ne. unfold has_attr, remove_attr. induction a as [|[k1 v] a IH]; [reflexivity|]. cbn [filter fst existsb].
  destruct (seqb_spec k' k1) as [->|N1]; cbn [negb existsb fst]; rewrite IH; [|reflexivity].
  assert (seqb k k1 = false) as -> by (apply P_Dom2.seqb_neq; exact Ne). reflexivity.
Qed.

Section Place.
Variable compile : str -> compiled.
Variable helper : nat -> str.
Variable autoblocks : list str.
Variable cdata_scripts : bool.
Variable mode : str.
Notation cnode := (compile_node compile helper autoblocks cdata_scripts mode).
Notation kids := (children compile helper autoblocks cdata_scripts mode).
Notation Role := (role_of autoblocks cdata_scripts).
Notation Declares_ := (declares autoblocks cdata_scripts).
Notation DeclareAll := (declare_all autoblocks cdata_scripts).
Notation Auto := (autoblock autoblocks).
Notation Wrong := (wrong compile autoblocks cdata_scripts).
Notation Step := (step autoblocks cdata_scripts).
Notation Reaches := (reaches autoblocks cdata_scripts).
Notation Unreadable := (unreadable compile).
Notation Part := (switch_part compile autoblocks cdata_scripts).
Notation Parts := (switch_parts compile autoblocks cdata_scripts).

Lemma alike_same : forall p p' prev n s, alike p p' -> cnode p prev n s = cnode p' prev n s.
Proof.
  intros p p' prev n s A. destruct n as [ln tag a cs|ln t e|ln t|ln t|ln t d]; try reflexivity.
  - assert (Eq : else_allowed p prev = else_allowed p' prev); [|rewrite !compile_elem; now rewrite Eq].
    destruct p as [|tg a1], p' as [|tg' a1']; try contradiction; [reflexivity|]. destruct A as [-> A]. cbn [else_allowed]. now rewrite A.
  - destruct p as [|tg a1], p' as [|tg' a1']; try contradiction; [reflexivity|]. destruct A as [-> A]. reflexivity.
  - destruct p as [|tg a1], p' as [|tg' a1']; try contradiction; [reflexivity|]. destruct A as [-> A]. reflexivity.
Qed.
Lemma auto_alike : forall tag a b a', is_autoblock autoblocks tag a = Ok (b, a') -> alike (InElement tag a') (InElement tag a) /\
  (forall k v, In (k, v) a' <-> In (k, v) a /\ (a' <> a -> k <> L "py:autoblock")) /\ (a' <> a -> In tag autoblocks /\ b = false).
Proof.
  intros tag a b a' E. unfold is_autoblock in E.
  assert (Id : a' = a -> alike (InElement tag a') (InElement tag a) /\
    (forall k v, In (k, v) a' <-> In (k, v) a /\ (a' <> a -> k <> L "py:autoblock")) /\ (a' <> a -> In tag autoblocks /\ b = false)).
  { intros ->. split; [apply alike_refl|]. split; [intros k v; tauto|congruence]. }
  destruct (smem tag autoblocks) eqn:Em; [|apply Id; congruence].
  destruct (has_attr (L "py:autoblock") a) eqn:Eh; [|apply Id; congruence].
  destruct (seqb _ (L "false")); [|destruct (seqb _ (L "true")); [apply Id; congruence|discriminate]].
  assert (b = false /\ a' = remove_attr (L "py:autoblock") a) as [-> ->] by (split; congruence).
  apply smem_In in Em. split; [split; [reflexivity|apply has_removed; discriminate]|]. split; [|intros _; now split].
  assert (Ne : remove_attr (L "py:autoblock") a <> a).
  { intros X. apply has_attr_spec in Eh. rewrite <- X in Eh. apply in_map_iff in Eh as ([k v] & Ek & I1). cbn [fst] in Ek. subst k.
    unfold remove_attr in I1. apply filter_In in I1 as [_ I1]. cbn [fst] in I1. rewrite seqb_refl in I1. discriminate. }
  intros k v. unfold remove_attr in *. rewrite filter_In. cbn [fst]. split.
  - intros [I1 B]. split; [exact I1|]. intros _ ->. rewrite seqb_refl in B. discriminate.
  - intros [I1 H]. split; [exact I1|]. destruct (seqb_spec (L "py:autoblock") k) as [<-|Nk]; [|reflexivity]. now destruct (H Ne).
Qed.
Lemma auto_raise : forall tag a e, is_autoblock autoblocks tag a = Raise e -> e = "ValueError"%string /\ In tag autoblocks /\
  ~ absent (L "py:autoblock") a /\ ~ In (lower (get_attr (L "py:autoblock") a)) [L "true"; L "false"].
Proof.
  intros tag a e E. unfold is_autoblock in E. destruct (smem tag autoblocks) eqn:Em; [|discriminate]. apply smem_In in Em.
  destruct (has_attr (L "py:autoblock") a) eqn:Eh; [|discriminate]. apply has_attr_spec in Eh.
  destruct (seqb_spec (lower (get_attr (L "py:autoblock") a)) (L "false")) as [|N1]; [discriminate|].
  destruct (seqb_spec (lower (get_attr (L "py:autoblock") a)) (L "true")) as [|N2]; [discriminate|].
  split; [congruence|]. split; [exact Em|]. split; [intros A; now apply A|]. intros [X|[X|[]]]; congruence.
Qed.
Lemma auto_wrong : forall tag a b a', is_autoblock autoblocks tag a = Ok (b, a') -> In tag autoblocks -> ~ absent (L "py:autoblock") a ->
  In (lower (get_attr (L "py:autoblock") a)) [L "true"; L "false"].
Proof.
  intros tag a b a' E I1 Na. unfold is_autoblock in E. apply smem_In in I1. rewrite I1 in E.
  assert (has_attr (L "py:autoblock") a = true) as Eh.
  { destruct (has_attr (L "py:autoblock") a) eqn:E0; [reflexivity|]. exfalso. apply Na. intros X. apply has_attr_spec in X. congruence. }
  rewrite Eh in E. destruct (seqb_spec (lower (get_attr (L "py:autoblock") a)) (L "false")) as [->|N1]; [cbn; tauto|].
  destruct (seqb_spec (lower (get_attr (L "py:autoblock") a)) (L "true")) as [->|N2]; [cbn; tauto|discriminate].
Qed.

(** ** Texts and attributes *)
Lemma nodes_raise : forall k ln t e, text_nodes compile k ln t = Raise e -> Unreadable ln t.
Proof. intros k ln t e E ps R. rewrite (text_nodes_reads _ k _ _ _ R) in E. discriminate. Qed.
Lemma nodes_ok : forall k ln t ns, text_nodes compile k ln t = Ok ns -> exists ps, reads compile ln t ps /\ ns = map (piece_node k) ps.
Proof.
  intros k ln t ns E. unfold text_nodes in E. destruct (M_XText.pieces compile t ln) as [ps|] eqn:Ep; [|discriminate]. cbn [rmap] in E.
  exists ps. split; [now apply pieces_spec|congruence].
Qed.
Lemma attrs_raise : forall ln g l s e, compile_attrs compile helper mode ln g l s = Raise e -> exists k v, In (k, v) l /\ Unreadable ln v.
Proof.
  intros ln g l. induction l as [|[k v] l IH]; intros s e E; cbn [compile_attrs] in E; [discriminate|].
  assert (Rec : forall s, compile_attrs compile helper mode ln g l s = Raise e -> exists k' v', In (k', v') ((k, v) :: l) /\ Unreadable ln v').
  { intros s0 E0. destruct (IH _ _ E0) as (k' & v' & I1 & U). exists k', v'. split; [now right|exact U]. }
  apply bind_raise in E as [E|(ns & s1 & _ & E)].
  - apply lift_raise in E. exists k, v. split; [now left|]. eapply nodes_raise, E.
  - destruct (_ || _); [eapply Rec, E|]. apply bind_raise in E as [E|(i & s2 & _ & E)]; [discriminate|].
    unfold cat in E. apply bind_raise in E as [E|(x & s3 & _ & E)]; [discriminate|]. apply bind_raise in E as [E|(y & s4 & _ & E)]; [eapply Rec, E|discriminate].
Qed.
Lemma attrs_ok : forall ln g l s ns s', compile_attrs compile helper mode ln g l s = Ok (ns, s') -> forall k v, In (k, v) l -> exists ps, reads compile ln v ps.
Proof.
  intros ln g l. induction l as [|[k0 v0] l IH]; intros s ns s' E k v I1; [destruct I1|]. cbn [compile_attrs] in E.
  apply bind_ok in E as (x & s1 & E1 & E). apply lift_ok in E1 as [E1 ->]. destruct I1 as [I1|I1].
  - assert (v0 = v) as <- by congruence. destruct (nodes_ok _ _ _ _ E1) as (ps & R & _). now exists ps.
  - destruct (_ || _); [eapply IH; eassumption|]. apply bind_ok in E as (i & s2 & _ & E). unfold cat in E.
    apply bind_ok in E as (y & s3 & _ & E). apply bind_ok in E as (z & s4 & E2 & E). eapply IH; eassumption.
Qed.

(** *** Scripts *)
Lemma unescape_raise : forall ps e, rseq (map unescape_node (map (piece_node TK_raw) ps)) = Raise e ->
  forall ss', ~ Forall2 decoded (map (text_stm TK_raw) ps) ss'.
Proof.
  intros ps. induction ps as [|p ps IH]; intros e E ss' F; [discriminate|]. cbn [map rseq] in E. inversion F as [|x y l l' D F']; subst.
  assert (H1 : exists n, unescape_node (piece_node TK_raw p) = Ok n).
  { destruct p as [ln t|ln t]; cbn [text_stm] in D; inversion D; subst; cbn [piece_node make_text_node unescape_node];
      match goal with U : unescape _ = Ok _ |- _ => rewrite U end; eexists; reflexivity. }
  destruct H1 as [n En]. rewrite En in E. cbn [rbind] in E.
  destruct (rseq (map unescape_node (map (piece_node TK_raw) ps))) as [x'|e'] eqn:Er; [discriminate|]. eapply IH; [reflexivity|exact F'].
Qed.
Lemma unescape_ok : forall ps ns, rseq (map unescape_node (map (piece_node TK_raw) ps)) = Ok ns -> exists ss', Forall2 decoded (map (text_stm TK_raw) ps) ss'.
Proof.
  intros ps. induction ps as [|p ps IH]; intros ns E; [exists []; constructor|]. cbn [map rseq] in E.
  destruct (unescape_node (piece_node TK_raw p)) as [n|] eqn:En; [|discriminate]. cbn [rbind] in E.
  destruct (rseq (map unescape_node (map (piece_node TK_raw) ps))) as [x'|e'] eqn:Er; [|discriminate]. destruct (IH _ eq_refl) as [ss' F].
  assert (H1 : exists y, decoded (text_stm TK_raw p) y).
  { destruct p as [ln t|ln t]; cbn [piece_node make_text_node unescape_node] in En; destruct (unescape t) as [t'|] eqn:U; try discriminate; eexists; constructor; exact U. }
  destruct H1 as [y D]. exists (y :: ss'). now constructor.
Qed.
Definition bad_script (tag : str) (cs : list dnode) : Prop :=
  (exists ln1 t e, In (DText ln1 t e) cs /\ Unreadable ln1 t) \/
  (exists ln1 t ss, In (DText ln1 t true) cs /\ text_says compile tag ln1 t ss /\ forall ss', ~ Forall2 decoded ss ss').
Definition bad_content (cs : list dnode) : Prop := exists c, In c cs /\ ~ is_mark c /\ forall ln1 t e, c <> DText ln1 t e.
Lemma bad_cons : forall tag c cs, bad_script tag cs -> bad_script tag (c :: cs).
Proof.
  intros tag c cs [(ln & t & e & I1 & U)|(ln & t & ss & I1 & T)]; [left; exists ln, t, e|right; exists ln, t, ss]; (split; [now right|assumption]).
Qed.
Lemma script_raise : forall tag a cs s e, script_or_style tag -> script_nodes compile tag a cs s = Raise e ->
  bad_script tag cs \/ (e = "AssertionError"%string /\ bad_content cs).
Proof.
  intros tag a cs. induction cs as [|c cs IH]; intros s e Sc E; [discriminate|].
  assert (Rec : forall s0, script_nodes compile tag a cs s0 = Raise e -> bad_script tag (c :: cs) \/ (e = "AssertionError"%string /\ bad_content (c :: cs))).
  { intros s0 E0. destruct (IH _ _ Sc E0) as [B|[-> (c' & I1 & B)]]; [left; now apply bad_cons|right; split; [reflexivity|]; exists c'; split; [now right|exact B]]. }
  assert (Bad : ~ is_mark c -> (forall ln1 t e1, c <> DText ln1 t e1) -> e = "AssertionError"%string -> bad_script tag (c :: cs) \/ (e = "AssertionError"%string /\ bad_content (c :: cs))).
  { intros M1 M2 ->. right. split; [reflexivity|]. exists c. split; [now left|]. now split. }
  destruct c as [ln tg at1 cs1|ln t esc|ln t|ln t|ln t d]; cbn [script_nodes] in E.
  - apply Bad; [intros []|discriminate|unfold fail in E; congruence].
  - apply bind_raise in E as [E|(ns & s1 & E1 & E)].
    + unfold compile_text in E. apply lift_raise in E. left. left. exists ln, t, esc. split; [now left|]. eapply nodes_raise, E.
    + unfold compile_text in E1. apply lift_ok in E1 as [E1 ->]. rewrite (proj2 (cdata_tag compile mode tag) Sc) in E1.
      destruct (nodes_ok _ _ _ _ E1) as (ps & R & ->). apply bind_raise in E as [E|(ns & s1 & E2 & E)].
      * apply lift_raise in E. destruct esc; [|discriminate]. left. right. exists ln, t, (map (text_stm TK_raw) ps). split; [now left|].
        split; [now constructor|]. eapply unescape_raise, E.
      * unfold cat in E. apply bind_raise in E as [E|(x & s3 & _ & E)]; [discriminate|]. apply bind_raise in E as [E|(y & s4 & _ & E)]; [eapply Rec, E|discriminate].
  - eapply Rec, E.
  - apply Bad; [intros []|discriminate|unfold fail in E; congruence].
  - apply Bad; [intros []|discriminate|unfold fail in E; congruence].
Qed.
Lemma reads_fun : forall ln t ps ps', reads compile ln t ps -> reads compile ln t ps' -> ps = ps'.
Proof. intros ln t ps ps' H H'. apply pieces_spec in H, H'. congruence. Qed.
Lemma script_ok : forall tag a cs s ns s', script_or_style tag -> script_nodes compile tag a cs s = Ok (ns, s') -> ~ bad_script tag cs /\ ~ bad_content cs.
Proof.
  intros tag a cs. induction cs as [|c cs IH]; intros s ns s' Sc E.
  { split; [intros [(ln & t & e & [] & _)|(ln & t & ss & [] & _)]|intros (c & [] & _)]. }
  assert (Rec : forall s0 ns0 s0', script_nodes compile tag a cs s0 = Ok (ns0, s0') ->
     (forall ln t e, c = DText ln t e -> exists ps, reads compile ln t ps /\ (e = true -> exists ss', Forall2 decoded (map (text_stm TK_raw) ps) ss')) ->
     is_mark c \/ (exists ln t e, c = DText ln t e) -> ~ bad_script tag (c :: cs) /\ ~ bad_content (c :: cs)).
  { intros s0 ns0 s0' E0 Hc Hm. destruct (IH _ _ _ Sc E0) as [N1 N2]. split.
    - intros [(ln & t & e & [->|I1] & U)|(ln & t & ss & [->|I1] & T & Nd)].
      + destruct (Hc _ _ _ eq_refl) as (ps & R & _). eapply U, R.
      + apply N1. left. now exists ln, t, e.
      + destruct (Hc _ _ _ eq_refl) as (ps & R & D). destruct (D eq_refl) as [ss' F]. destruct T as [ps' _ R'|ps' _ Ns _]; [|contradiction].
        rewrite (reads_fun _ _ _ _ R' R) in Nd. eapply Nd, F.
      + apply N1. right. exists ln, t, ss. now split.
    - intros (c' & [<-|I1] & Nm & Nt); [|apply N2; exists c'; now split]. destruct Hm as [Hm|(ln & t & e & ->)]; [contradiction|]. now apply (Nt ln t e). }
  destruct c as [ln tg at1 cs1|ln t esc|ln t|ln t|ln t d]; cbn [script_nodes] in E; try discriminate.
  - apply bind_ok in E as (ns1 & s1 & E1 & E). unfold compile_text in E1. apply lift_ok in E1 as [E1 ->]. rewrite (proj2 (cdata_tag compile mode tag) Sc) in E1.
    destruct (nodes_ok _ _ _ _ E1) as (ps & R & ->). apply bind_ok in E as (ns2 & s2 & E2 & E). apply lift_ok in E2 as [E2 ->].
    unfold cat in E. apply bind_ok in E as (x & s3 & _ & E). apply bind_ok in E as (y & s4 & E3 & E).
    eapply Rec; [exact E3| |right; now exists ln, t, esc]. intros ln1 t1 e1 Eq. assert (ln1 = ln /\ t1 = t /\ e1 = esc) as (-> & -> & ->) by (repeat split; congruence).
    exists ps. split; [exact R|]. intros ->. eapply unescape_ok, E2.
  - eapply Rec; [exact E|discriminate|left; exact Logic.I].
Qed.

(** ** Children *)
Definition before (prev : str) (l : list dnode) : str := match rev l with [] => prev | n :: _ => name_of n end.
Lemma before_cons : forall prev c l, before prev (c :: l) = before (tag_of c) l.
Proof. intros prev c l. unfold before. cbn [rev]. destruct (rev l) as [|n r]; reflexivity. Qed.
Lemma kid_records : forall marks ln self prev c s ns s',
  (match marks, c with true, DMark _ t => ret [NText ln t None] | _, _ => cnode self prev c end) s = Ok (ns, s') ->
  exists d, Declares_ (c_in_def s) c d /\ c_in_def s' = c_in_def s /\ c_is_child s' = c_is_child s || extends_b d.
Proof.
  intros marks ln self prev c s ns s' E.
  assert (C : cnode self prev c s = Ok (ns, s') -> exists d, Declares_ (c_in_def s) c d /\ c_in_def s' = c_in_def s /\ c_is_child s' = c_is_child s || extends_b d).
  { intros E0. destruct (compile_records compile helper autoblocks cdata_scripts mode c _ _ _ _ _ E0) as (d & D & R & I1). apply runs_child in R. exists d. now split. }
  destruct marks; [|now apply C]. destruct c; try (now apply C). unfold ret in E. assert (s' = s) as -> by congruence.
  exists []. split; [constructor|]. split; [reflexivity|]. cbn. now rewrite orb_false_r.
Qed.
Lemma extends_app : forall d d', extends_b (d ++ d') = extends_b d || extends_b d'.
Proof. intros d d'. unfold extends_b. apply existsb_app. Qed.
Lemma kids_ok_at : forall marks ln self c l2 l1 prev s ns s', kids marks ln self prev (l1 ++ c :: l2) s = Ok (ns, s') -> (marks = true -> ~ is_mark c) ->
  exists s1 ns1 s2 d, cnode self (before prev l1) c s1 = Ok (ns1, s2) /\ DeclareAll (c_in_def s) l1 d /\
    c_in_def s1 = c_in_def s /\ c_is_child s1 = c_is_child s || extends_b d.
Proof.
  intros marks ln self c l2 l1. induction l1 as [|c1 l1 IH]; intros prev s ns s' E Hm.
  - cbn [app] in E. rewrite children_node in E by (destruct marks; auto). unfold cat in E. apply bind_ok in E as (x & s1 & E1 & _).
    exists s, x, s1, []. split; [exact E1|]. split; [constructor|]. split; [reflexivity|]. cbn. now rewrite orb_false_r.
  - cbn [app children] in E. unfold cat in E. apply bind_ok in E as (x & s1 & E1 & E). apply bind_ok in E as (y & s2 & E2 & _).
    destruct (kid_records _ _ _ _ _ _ _ _ E1) as (d & D & I1 & C1). destruct (IH _ _ _ _ E2 Hm) as (s3 & ns3 & s4 & d' & E3 & D' & I3 & C3).
    exists s3, ns3, s4, (d ++ d'). rewrite before_cons. split; [exact E3|]. rewrite I1 in D', I3. split; [now constructor|]. split; [exact I3|].
    rewrite C3, C1, extends_app. now rewrite orb_assoc.
Qed.
Lemma kids_raise : forall marks ln self cs prev s e, kids marks ln self prev cs s = Raise e ->
  exists l1 c l2 s1 d, cs = l1 ++ c :: l2 /\ (marks = true -> ~ is_mark c) /\ cnode self (before prev l1) c s1 = Raise e /\
    DeclareAll (c_in_def s) l1 d /\ c_in_def s1 = c_in_def s /\ c_is_child s1 = c_is_child s || extends_b d.
Proof.
  intros marks ln self cs. induction cs as [|c cs IH]; intros prev s e E; [discriminate|]. cbn [children] in E. unfold cat in E.
  apply bind_raise in E as [E|(x & s1 & E1 & E)].
  - exists [], c, cs, s, []. split; [reflexivity|].
    assert (Hm : marks = true -> ~ is_mark c) by (intros ->; destruct c; cbn [is_mark]; try tauto; discriminate).
    split; [exact Hm|]. split; [|split; [constructor|split; [reflexivity|cbn; now rewrite orb_false_r]]].
    destruct marks; [|exact E]. destruct c; try exact E. discriminate.
  - apply bind_raise in E as [E|(y & s2 & _ & E)]; [|discriminate].
    destruct (kid_records _ _ _ _ _ _ _ _ E1) as (d & D & I1 & C1). destruct (IH _ _ _ E) as (l1 & c' & l2 & s3 & d' & -> & Hm & E3 & D' & I3 & C3).
    exists (c :: l1), c', l2, s3, (d ++ d'). split; [reflexivity|]. split; [exact Hm|]. rewrite before_cons. split; [exact E3|]. rewrite I1 in D', I3.
    split; [now constructor|]. split; [exact I3|]. rewrite C3, C1, extends_app. now rewrite orb_assoc.
Qed.

(** ** What a switch may contain *)
Definition only_case (n : node) : bool := match ir_text n with Some t => forallb is_space t | None => is_case_or_else n end.
Lemma switch_body_spec : forall l, if forallb only_case l then exists l', switch_body l = Ok l' else switch_body l = Raise "XMLTemplateCompileError".
Proof.
  induction l as [|n l IH]; [now exists []|]. cbn [forallb switch_body]. unfold only_case at 1.
  destruct (ir_text n) as [t|].
  - pose proof (strip_blank_spec t) as B. destruct (strip t); rewrite <- B; cbn [andb]; [exact IH|reflexivity].
  - destruct (is_case_or_else n); cbn [andb]; [|reflexivity]. destruct (forallb only_case l); [destruct IH as [l' ->]; eexists; reflexivity|now rewrite IH].
Qed.

Lemma role_method : forall tag a r, Role tag a r ->
  match r with
  | Block name => Auto tag a \/ (~ Auto tag a /\ method_of tag = KBlock)
  | Def _ => ~ Auto tag a /\ method_of tag = KDef
  | Ext => ~ Auto tag a /\ method_of tag = KExtends
  | Leaf => ~ Auto tag a
  | Inner => ~ Auto tag a /\ (method_of tag = KXml \/ In (method_of tag) [KCall; KFor; KWith; KSwitch; KCase; KIf; KElse; KNop])
  end.
Proof.
  intros tag a r H. destruct H as [A|NA D|NA D|NA D|d NA D I1|d NA D I1|NA|NA|NA Pl G Ns]; auto.
  - right. split; [exact NA|]. eapply method_known; [|exact D]. cbn [methods In]. tauto.
  - split; [exact NA|]. eapply method_known; [|exact D]. cbn [methods In]. tauto.
  - split; [exact NA|]. eapply method_known; [|exact D]. cbn [methods In]. tauto.
  - split; [exact NA|]. right. unfold inner_directives in I1. cbn [In] in I1.
    assert (K : forall d' m, d' = d -> In (d', m) methods -> In m [KCall; KFor; KWith; KSwitch; KCase; KIf; KElse; KNop] -> In (method_of tag) [KCall; KFor; KWith; KSwitch; KCase; KIf; KElse; KNop]).
    { intros d' m -> I2 I3. now rewrite (method_known tag m d I2 D). }
    repeat (destruct I1 as [I1|I1]; [eapply K; [exact I1|cbn [methods In]; tauto|cbn [In]; tauto]|]). destruct I1.
  - split; [exact NA|]. left. now apply method_plain_conv.
Qed.
Lemma part_elem : forall i x ln tag a cs, Part i x (DElem ln tag a cs) ->
  (~ Auto tag a /\ (method_of tag = KCase \/ method_of tag = KElse)) \/
  (~ Auto tag a /\ method_of tag = KNop /\ Parts i x cs) \/
  (i = false /\ ~ Auto tag a /\ method_of tag = KDef) \/
  (exists name d, Role tag a (Block name) /\ Declares_ i (DElem ln tag a cs) d /\ (x = true \/ extending d)).
Proof.
  intros i x ln tag a cs H. remember (DElem ln tag a cs) as n eqn:En.
  destruct H as [i x ln0 tag0 a0 cs0 NA D|i x ln0 tag0 a0 cs0 NA D|i x ln0 tag0 a0 cs0 NA D P| | | | |x ln0 tag0 a0 cs0 f Ro|i x ln0 tag0 a0 cs0 name d Ro De X];
    try discriminate; assert (ln0 = ln /\ tag0 = tag /\ a0 = a /\ cs0 = cs) as (-> & -> & -> & ->) by (repeat split; congruence).
  - left. split; [exact NA|]. left. eapply method_known; [|exact D]. cbn [methods In]. tauto.
  - left. split; [exact NA|]. right. eapply method_known; [|exact D]. cbn [methods In]. tauto.
  - right. left. split; [exact NA|]. split; [|exact P]. eapply method_known; [|exact D]. cbn [methods In]. tauto.
  - right. right. left. split; [reflexivity|]. exact (role_method _ _ _ Ro).
  - right. right. right. exists name, d. now split.
Qed.
Lemma pieces_only : forall k ps, forallb only_case (map (piece_node k) ps) = true <-> Forall blank_piece ps.
Proof.
  intros k ps. induction ps as [|p ps IH]; [split; constructor|]. cbn [map forallb]. rewrite andb_true_iff, IH, Forall_cons_iff.
  assert (E : only_case (piece_node k p) = true <-> blank_piece p); [|tauto].
  destruct p as [ln t|ln t]; cbn [piece_node blank_piece].
  - assert (E : ir_text (match k with TK_text => make_text_node ln t | _ => NText ln t None end) = Some t) by (destruct k; try reflexivity; unfold make_text_node; now destruct (strip t)).
    unfold only_case. rewrite E. tauto.
  - unfold only_case. cbn [ir_text is_case_or_else]. split; [discriminate|tauto].
Qed.
Definition parted (n : dnode) : Prop := forall p prev s ns s', cnode p prev n s = Ok (ns, s') ->
  (forallb only_case ns = true <-> Part (c_in_def s) (c_is_child s) n).
Lemma declares_fun : forall i n d d', Declares_ i n d -> Declares_ i n d' -> d = d'.
Proof. intros i n d d' H H'. eapply (proj1 (declares_unique autoblocks cdata_scripts)); eassumption. Qed.
Lemma bool_iff : forall x x' (P : Prop) b, (b = true <-> P) -> (x' = true <-> x = true \/ P) -> x' = x || b.
Proof. intros x x' P b H1 H2. destruct x', x, b; cbn [orb]; try reflexivity; exfalso; intuition congruence. Qed.
Lemma kids_parted : forall ln self cs, Forall parted cs -> forall prev s ns s', kids false ln self prev cs s = Ok (ns, s') ->
  (forallb only_case ns = true <-> Parts (c_in_def s) (c_is_child s) cs).
Proof.
  intros ln self cs F. induction F as [|c cs H F IH]; intros prev s ns s' E.
  - cbn in E. unfold ret in E. assert (ns = []) as -> by congruence. split; [constructor|reflexivity].
  - cbn [children] in E. unfold cat in E. apply bind_ok in E as (x & s1 & E1 & E). apply bind_ok in E as (y & s2 & E2 & E).
    unfold ret in E. assert (ns = x ++ y) as -> by congruence. rewrite forallb_app, andb_true_iff, (H _ _ _ _ _ E1), (IH _ _ _ _ E2).
    destruct (compile_records compile helper autoblocks cdata_scripts mode c _ _ _ _ _ E1) as (d & D & R & I1). apply runs_child in R. rewrite I1. split.
    + intros [P Ps]. econstructor; [exact P|exact D| |exact Ps]. rewrite R. rewrite <- extends_spec. rewrite orb_true_iff. reflexivity.
    + intros Ps. inversion Ps as [|i0 x0 n0 l0 d' x' P D' Ex Ps']; subst. split; [exact P|]. rewrite (declares_fun _ _ _ _ D' D) in Ex.
      rewrite (bool_iff _ _ _ _ (extends_spec d) Ex), <- R in Ps'. exact Ps'.
Qed.
Lemma not_only : forall ns, forallb only_case ns = false -> forall P, ~ P -> (forallb only_case ns = true <-> P).
Proof. intros ns E P Np. rewrite E. split; [discriminate|tauto]. Qed.
Theorem switch_contents : forall n, parted n.
Proof.
  apply (dnode_rec' parted).
  - intros ln tag a cs F p prev s ns s' E0. pose proof E0 as E. rewrite compile_elem in E. apply bind_ok in E as ([b a'] & s1 & E1 & E).
    apply lift_ok in E1 as [Ea ->]. apply (autoblock_ok compile autoblocks mode) in Ea as (A1 & A2 & Ga). cbn [fst snd] in E. cbv zeta in E.
    assert (Blk : forall name, Role tag a (Block name) -> (forallb only_case ns = true <-> Part (c_in_def s) (c_is_child s) (DElem ln tag a cs))).
    { intros name Ro. rewrite (block_place _ _ _ _ _ _ _ _ _ _ _ _ _ _ _ Ro E0).
      destruct (compile_records compile helper autoblocks cdata_scripts mode _ _ _ _ _ _ E0) as (d & D & R & _). apply runs_child in R. rewrite R. split.
      - intros H. eapply sp_block; [exact Ro|exact D|]. rewrite <- extends_spec, <- orb_true_iff. destruct (_ || _); [reflexivity|discriminate].
      - intros P. apply part_elem in P as [[NA M1]|[(NA & M1 & _)|[(_ & NA & M1)|(nm & d' & _ & D' & X)]]];
          try (exfalso; destruct (role_method _ _ _ Ro) as [?|[_ M2]]; [contradiction|rewrite M2 in M1; intuition discriminate]).
        rewrite (declares_fun _ _ _ _ D' D), <- extends_spec, <- orb_true_iff in X. now rewrite X. }
    destruct b; [apply (Blk tag); apply ro_auto; auto|]. specialize (A2 eq_refl). clear A1.
    pose proof (method_directive tag) as Md.
    assert (No : method_of tag <> KCase -> method_of tag <> KElse -> method_of tag <> KNop -> method_of tag <> KDef -> method_of tag <> KBlock -> ~ Part (c_in_def s) (c_is_child s) (DElem ln tag a cs)).
    { intros N1 N2 N3 N4 N5 P. apply part_elem in P as [[_ [M1|M1]]|[(_ & M1 & _)|[(_ & _ & M1)|(nm & d' & Ro & _)]]]; try contradiction.
      destruct (role_method _ _ _ Ro) as [?|[_ M2]]; contradiction. }
    assert (K : forall s1 body s2, kids false ln (InElement tag a') [] cs s1 = Ok (body, s2) -> (forallb only_case body = true <-> Parts (c_in_def s1) (c_is_child s1) cs))
      by (intros; eapply kids_parted; eassumption).
    destruct (method_of tag) eqn:Em; cbn [method_name] in *;
      try (apply not_only; [|apply No; discriminate]).
    + (* xml *) unfold xml_nodes in E. cbv zeta in E. unfold cat at 1 in E. apply bind_ok in E as (x & s1 & E1 & E). apply bind_ok in E as (y & s2 & E2 & E).
      unfold ret in E1, E. assert (ns = NText ln (L "<" ++ tag) (strip_guard a') :: y) as -> by (assert (x = [NText ln (L "<" ++ tag) (strip_guard a')]) as -> by congruence; cbn [app] in E; congruence).
      reflexivity.
    + unfold ret in E. assert (ns = [NExpr ln (get_attr (L "value") a') false]) as -> by congruence. reflexivity.
    + unfold ret in E. match type of E with Ok (?l, _) = _ => assert (ns = l) as -> by congruence end. reflexivity.
    + apply bind_ok in E as (u & s1 & _ & E). unfold cat in E. apply bind_ok in E as (x & s2 & E1 & E). apply bind_ok in E as (y & s3 & _ & E).
      unfold ret in E1, E. assert (ns = x ++ y) as -> by congruence. match type of E1 with Ok (?l, _) = _ => assert (x = l) as -> by congruence end. reflexivity.
    + unfold ret in E. match type of E with Ok (?l, _) = _ => assert (ns = l) as -> by congruence end. reflexivity.
    + (* block *) apply (Blk (get_attr (L "name") a)). apply ro_block; [exact A2|now apply Md].
    + (* def *) assert (Ro : Role tag a (Def (get_attr (L "function") a))) by (apply ro_def; [exact A2|now apply Md]).
      pose proof (def_place _ _ _ _ _ _ _ _ _ _ _ _ _ _ _ Ro E0) as P. destruct (c_in_def s) eqn:Ei.
      * destruct P as (a1 & s0 & body & s2 & -> & _). apply not_only; [reflexivity|]. intros P.
        apply part_elem in P as [[_ [M1|M1]]|[(_ & M1 & _)|[(X & _)|(nm & d' & Ro' & _)]]]; try congruence.
        pose proof (role_unique _ _ _ _ _ _ Ro Ro'). discriminate.
      * rewrite P. split; [intros _; eapply sp_def; exact Ro|reflexivity].
    + (* call *) apply bind_ok in E as (u & s1 & _ & E). apply bind_ok in E as (body & s2 & _ & E). apply bind_ok in E as (i & s3 & _ & E).
      unfold ret in E. match type of E with Ok (?l, _) = _ => assert (ns = l) as -> by congruence end. reflexivity.
    + apply bind_ok in E as (body & s2 & _ & E). unfold ret in E. match type of E with Ok (?l, _) = _ => assert (ns = l) as -> by congruence end. reflexivity.
    + (* with *) apply bind_ok in E as (body & s2 & _ & E). apply bind_ok in E as (n & s3 & E1 & E). apply lift_ok in E1 as [E1 ->]. unfold mk_with in E1.
      destruct (with_vars _) as [vs|]; [|discriminate]. cbn [rmap] in E1. unfold ret in E. assert (ns = [NWith ln vs body]) as -> by congruence. reflexivity.
    + apply bind_ok in E as (body & s2 & _ & E). apply bind_ok in E as (body' & s3 & _ & E). unfold ret in E. match type of E with Ok (?l, _) = _ => assert (ns = l) as -> by congruence end. reflexivity.
    + (* case *) apply bind_ok in E as (body & s2 & _ & E). unfold ret in E. match type of E with Ok (?l, _) = _ => assert (ns = l) as -> by congruence end.
      split; [intros _; apply sp_case; [exact A2|now apply Md]|reflexivity].
    + apply bind_ok in E as (body & s2 & _ & E). unfold ret in E. match type of E with Ok (?l, _) = _ => assert (ns = l) as -> by congruence end. reflexivity.
    + (* else *) apply bind_ok in E as (ok & s2 & _ & E). destruct ok; [|discriminate]. apply bind_ok in E as (body & s3 & _ & E). unfold ret in E.
      match type of E with Ok (?l, _) = _ => assert (ns = l) as -> by congruence end. split; [intros _; apply sp_else; [exact A2|now apply Md]|reflexivity].
    + (* nop *) rewrite (K _ _ _ E). split; [intros P; apply sp_nop; [exact A2|now apply Md|exact P]|]. intros P.
      apply part_elem in P as [[_ [M1|M1]]|[(_ & _ & P)|[(_ & _ & M1)|(nm & d' & Ro & _)]]]; try congruence.
      destruct (role_method _ _ _ Ro) as [?|[_ M2]]; [contradiction|congruence].
    + discriminate.
    + discriminate.
  - intros ln t e p prev s ns s' E. cbn [compile_node] in E. destruct p as [|tg a]; [discriminate|]. unfold compile_text in E. apply lift_ok in E as [E _].
    destruct (nodes_ok _ _ _ _ E) as (ps & R & ->). rewrite pieces_only. split; [intros B; now apply (sp_text _ _ _ _ _ _ _ _ ps)|].
    intros P. inversion P as [| | |i0 x0 ln0 t0 e0 ps' R' B| | | | |]; subst. now rewrite (reads_fun _ _ _ _ R R').
  - intros ln t p prev s ns s' E. cbn [compile_node] in E. destruct p as [|tg a]; [discriminate|]. unfold compile_text in E. apply lift_ok in E as [E _].
    destruct (nodes_ok _ _ _ _ E) as (ps & R & ->). rewrite pieces_only. split; [intros B; now apply (sp_mark _ _ _ _ _ _ _ ps)|].
    intros P. inversion P as [| | | |i0 x0 ln0 t0 ps' R' B| | | |]; subst. now rewrite (reads_fun _ _ _ _ R R').
  - intros ln t p prev s ns s' E. cbn [compile_node] in E. unfold ret in E. assert (ns = compile_comment ln t) as -> by congruence. unfold compile_comment.
    destruct (prefixb (L "!") t) eqn:Ep; [split; [intros _; now apply sp_hidden|reflexivity]|]. apply not_only; [reflexivity|].
    intros P. inversion P; congruence.
  - intros ln t d p prev s ns s' E. cbn [compile_node] in E. unfold compile_pi in E. apply bind_ok in E as (n & s1 & E1 & E). apply lift_ok in E1 as [E1 ->].
    unfold mk_python in E1. cbn [concat] in E1. rewrite app_nil_r in E1. destruct (strip d) as [|c code] eqn:Es; [discriminate|].
    destruct (N.eqb_spec c c_pct) as [->|Ne].
    + destruct (normalize code) as [ls|]; [|discriminate]. cbn [rmap] in E1. assert (n = NPython ln ls true) as -> by congruence.
      apply bind_ok in E as (u & s2 & _ & E). unfold ret in E. assert (ns = []) as -> by congruence. split; [intros _; eapply sp_module; exact Es|reflexivity].
    + destruct (normalize (c :: code)) as [ls|]; [|discriminate]. cbn [rmap] in E1. assert (n = NPython ln ls false) as -> by congruence.
      unfold ret in E. assert (ns = [NPython ln ls false]) as -> by congruence. apply not_only; [reflexivity|]. intros P. inversion P; congruence.
Qed.
End Place.
