(** * Properties of the document tree of XML templates (C38 - C41) *)

From Coq Require Import Ascii String List Arith NArith ZArith Bool.
From Verif Require Import PyStr PyStrLemmas M_Text S_Text M_Dom S_Dom P_Dom P_Dom2.
Import ListNotations.
Open Scope list_scope.

(** ** An example: [<a py:if="x"> b &amp; <![CDATA[c]]><!--d--></a>] *)
Definition ex_events : list event :=
  [EStart 1 (L "a") [(L "py:if", L "x"); (L "id", L "i")]; EChars 1 (L " b "); EChars 1 (L "&"); EChars 1 (L " ");
   EStartCDATA 1; EChars 1 (L "c"); EEndCDATA 1; EComment 1 (L "d"); EEnd 1 (L "a")].
Definition ex_tree : dnode :=
  DElem 1 (L "a") [(L "py:if", L "x"); (L "id", L "i")]
    [DText 1 (L " b ") true; DText 1 (L "&amp;") true; DText 1 (L " ") true;
     DMark 1 (L "<![CDATA["); DText 1 (L "c") false; DMark 1 (L "]]>"); DComment 1 (L "d")].

(** ** The parser's events give the tree they stand for *)
Theorem C38_parsed : forall l es, reported l es -> Forall outer l -> build es = Ok l.
Proof. exact build_reported. Qed.
Print Assumptions C38_parsed.
Example C38_parsed_example : reported [ex_tree] ex_events /\ Forall outer [ex_tree].
Proof.
  split; [|repeat constructor]. unfold ex_tree, ex_events.
  apply (rp_elem 1 1 (L "a") _ _ [EChars 1 (L " b "); EChars 1 (L "&"); EChars 1 (L " "); EStartCDATA 1; EChars 1 (L "c"); EEndCDATA 1; EComment 1 (L "d")] [] []); [|constructor].
  apply (rp_text 1 (L " b ")), (rp_text 1 (L "&")), (rp_text 1 (L " ")), (rp_cdata 1 1 [(1, L "c")]), rp_comment, rp_nil.
Qed.

(** ** C38: merging texts *)

(** Runs of texts become single texts, nothing else changes; this says all about the result. *)
Theorem C38_merge : forall n n', ~ is_text n -> (merged n n' <-> n' = merge n).
Proof. intros n n' H. split; [apply (proj1 merged_unique)|]. intros ->. now apply merge_merged. Qed.
Print Assumptions C38_merge.
(** The document says the same as before if neighbouring texts have the same flag, which they do
    in every parsed document, also after the expansion of its directives. *)
Theorem C38_same_text : forall n, uniform n -> tokens (merge n) = tokens n.
Proof. exact merge_tokens. Qed.
Print Assumptions C38_same_text.
Theorem C38_uniform : forall es l, build es = Ok l -> Forall uniform l /\ Forall uniform (map expand l).
Proof.
  intros es l B. apply build_uniform in B. split; [exact B|]. apply Forall_map. revert B. apply Forall_impl. exact expand_uniform.
Qed.
Print Assumptions C38_uniform.
(** No element has two neighbouring texts afterwards. *)
Theorem C38_apart : forall n ln tag a cs, element_in (merge n) ln tag a cs -> apart cs.
Proof.
  intros n ln tag a cs E. destruct (text_dec n) as [T|T].
  - rewrite merge_text in E by assumption. now destruct n.
  - eapply (proj1 merged_apart); [apply merge_merged; exact T|exact E].
Qed.
Print Assumptions C38_apart.
Example C38_example : build ex_events = Ok [ex_tree] /\ ~ is_text ex_tree /\
  merge ex_tree = DElem 1 (L "a") [(L "py:if", L "x"); (L "id", L "i")]
    [DText 1 (L " b &amp; ") true; DMark 1 (L "<![CDATA["); DText 1 (L "c") false; DMark 1 (L "]]>"); DComment 1 (L "d")].
Proof. split; [reflexivity|]. split; [exact (fun h => h)|reflexivity]. Qed.

(** A document that begins with a comment or a processing instruction is not merged, nor are
    its directives expanded. *)
Theorem C38_leading_refuted : forall n l dtd, (match n with DComment _ _ | DPi _ _ _ => True | _ => False end) ->
  d_children (transform false (Document dtd (n :: l))) = n :: map extract_spaces l.
Proof. intros [] l dtd H; try now destruct H. Qed.
Print Assumptions C38_leading_refuted.

(** ** C39: white space at the ends of texts *)

Theorem C39_split : forall n n', ~ is_text n -> (spaced n n' <-> n' = extract_spaces n).
Proof. intros n n' H. split; [apply (proj1 spaced_unique)|]. intros ->. now apply extract_spaced. Qed.
Print Assumptions C39_split.
Theorem C39_same_text : forall n, tokens (extract_spaces n) = tokens n.
Proof. exact spaces_tokens. Qed.
Print Assumptions C39_same_text.
Theorem C39_tidy : forall n ln tag a cs, element_in (extract_spaces n) ln tag a cs -> Forall tidy cs.
Proof.
  intros n ln tag a cs E. destruct (text_dec n) as [T|T].
  - now destruct n.
  - eapply (proj1 spaced_tidy); [apply extract_spaced; exact T|exact E].
Qed.
Print Assumptions C39_tidy.
(** Doing it again (as the loop does with the new nodes) changes nothing. *)
Theorem C39_again : forall n, extract_spaces (extract_spaces n) = extract_spaces n.
Proof. exact extract_idempotent. Qed.
Print Assumptions C39_again.
Example C39_example : extract_spaces (DElem 1 (L "p") [] [DText 1 ([c_nl] ++ L "a b" ++ [c_nl; c_sp]) true; DText 9 (L " ") true]) =
  DElem 1 (L "p") [] [DText 1 [c_nl] true; DText 2 (L "a b") true; DText 2 [c_nl; c_sp] true; DText 9 (L " ") true].
Proof. reflexivity. Qed.

(** ** C40: stripping texts *)

Theorem C40_strip : forall n n', stripped n n' <-> n' = strip_texts n.
Proof. intros n n'. split; [apply stripped_unique|]. intros ->. apply strip_stripped. Qed.
Print Assumptions C40_strip.
Example C40_example : strip_texts (DElem 1 (L "p") [] [DText 1 ([c_nl] ++ L "a b" ++ [c_nl; c_sp]) true; DMark 2 (L "]]>"); DText 9 (L " ") true]) =
  DElem 1 (L "p") [] [DText 2 (L "a b") true; DMark 2 (L "]]>"); DText 9 [] true].
Proof. reflexivity. Qed.
(** Without stripping the whole transformation keeps every character, CDATA marker, comment and
    processing instruction, in order. *)
Theorem C40_kept : forall es l dtd, build es = Ok l ->
  flat_map content (d_children (transform false (Document dtd l))) = flat_map content l.
Proof. exact transform_content. Qed.
Print Assumptions C40_kept.
Example C40_kept_example : exists l, build ex_events = Ok l /\ length (flat_map content l) = 13.
Proof. eexists. split; reflexivity. Qed.
(** With it, what is left is the stripped form of that. *)
Theorem C40_whole : forall l dtd, Forall2 stripped (d_children (transform false (Document dtd l))) (d_children (transform true (Document dtd l))).
Proof.
  intros l dtd. unfold transform. cbn [d_children]. induction (map extract_spaces _) as [|n m IH]; cbn [map]; constructor; auto. apply strip_stripped.
Qed.
Print Assumptions C40_whole.

(** ** C41: directives *)

(** The attributes of an element: present or not, with a value, without one of them. *)
Theorem C41_attributes : forall k a,
  (has_attr k a = true <-> exists v, In (k, v) a) /\
  (forall x v y, a = x ++ (k, v) :: y -> ~ In k (map fst x) -> get_attr k a = v) /\
  (~ In k (map fst a) -> get_attr k a = []) /\
  (forall k' v, In (k', v) (remove_attr k a) <-> In (k', v) a /\ k' <> k).
Proof.
  intros k a. split; [|split; [|split]].
  - unfold has_attr. rewrite existsb_exists. split.
    + intros ([k' v] & I & E). apply seqb_eq in E. cbn [fst] in E. subst k'. now exists v.
    + intros [v I]. exists (k, v). split; [exact I|]. now apply seqb_eq.
  - intros x v y ->. induction x as [|[k' v'] x IH]; intros N0; cbn [app get_attr].
    + now rewrite (proj2 (seqb_eq k k) eq_refl).
    + cbn [map fst In] in N0. destruct (seqb k k') eqn:E; [apply seqb_eq in E; subst; tauto|]. apply IH. tauto.
  - induction a as [|[k' v'] a IH]; intros N0; [reflexivity|]. cbn [get_attr]. cbn [map fst In] in N0.
    destruct (seqb k k') eqn:E; [apply seqb_eq in E; subst; tauto|]. apply IH. tauto.
  - intros k' v. unfold remove_attr. rewrite filter_In. cbn [fst]. split; intros [I E]; (split; [exact I|]).
    + intros ->. rewrite (proj2 (seqb_eq k k) eq_refl) in E. discriminate.
    + destruct (seqb k k') eqn:E'; [apply seqb_eq in E'; now subst|reflexivity].
Qed.
Print Assumptions C41_attributes.

(** An attribute with the name of the directive has no effect on the element form. *)
Theorem C41_own_argument : forall ln d arg a cs, In (d, arg) directives ->
  expand (DElem ln d a cs) = expand (DElem ln d (remove_attr d a) cs).
Proof.
  intros ln d arg a cs I. cbn [expand]. rewrite !(expand_directive ln d arg), !applied_set by exact I.
  assert (D : directive_name d) by (unfold directive_name; change d with (fst (d, arg)); now apply in_map).
  assert (Ne : arg <> d).
  { intros ->. cbn in I. repeat (destruct I as [I|I]; [now injection I as <-|]). destruct I. }
  rewrite others_remove, get_remove by assumption. f_equal. unfold applied. apply flat_map_ext. intros k.
  destruct (list_eq_dec N.eq_dec (fst k) d) as [E|E].
  - rewrite E. unfold has_attr. cbn [existsb fst get_attr]. now rewrite (proj2 (seqb_eq d d) eq_refl).
  - unfold has_attr at 1 2. cbn [existsb fst get_attr]. rewrite (seqb_neq (fst k) d E). cbn [orb].
    fold (has_attr (fst k) a) (has_attr (fst k) (remove_attr d a)). now rewrite has_remove, get_remove.
Qed.
Print Assumptions C41_own_argument.
Example C41_own_argument_example :
  expand (DElem 1 (L "py:if") [(L "py:if", L "b"); (L "test", L "a")] [DText 1 (L "x") false]) =
  DElem 1 (L "py:if") [(L "test", L "a")] [DElem 1 (L "py:nop") [(L "test", L "a")] [DText 1 (L "x") false]].
Proof. reflexivity. Qed.

Theorem C41_expand : forall n n', expands n n' <-> n' = expand n.
Proof. intros n n'. split; [apply expands_unique|]. intros ->. apply expand_expands. Qed.
Print Assumptions C41_expand.
(** No directive attribute is left, and directive elements have only their argument and one child. *)
Theorem C41_none_left : forall n, well_placed (expand n).
Proof. intros n. eapply expands_well_placed. apply expand_expands. Qed.
Print Assumptions C41_none_left.
(** Everything else is kept. *)
Theorem C41_kept : forall n, bare (expand n) = bare n.
Proof. intros n. apply expands_bare, expand_expands. Qed.
Print Assumptions C41_kept.
(** An element with a directive as an attribute, and the directive element around it: the same
    apart from [py:nop] elements, if the directives in [a] come after [d] in the order. *)
Theorem C41_forms : forall d v x y ln tag a cs,
  directives = x ++ d :: y -> fst d <> L "py:extends" -> (snd d = [] -> v = []) -> ~ directive_name tag ->
  (forall d', In d' (x ++ [d]) -> has_attr (fst d') a = false) ->
  dissolve (expand (DElem ln (fst d) (argument d v) [DElem ln tag a cs])) =
  dissolve (expand (DElem ln tag ((fst d, v) :: a) cs)).
Proof. exact forms_agree. Qed.
Print Assumptions C41_forms.
Example C41_example :
  expand (DElem 3 (L "a") [(L "py:if", L "x"); (L "id", L "i"); (L "py:for", L "x in y")] [DElem 4 (L "py:if") [(L "test", L "z")] []]) =
  DElem 3 (L "py:for") [(L "each", L "x in y")]
    [DElem 3 (L "py:if") [(L "test", L "x")]
       [DElem 3 (L "a") [(L "id", L "i")]
          [DElem 4 (L "py:if") [(L "test", L "z")] [DElem 4 (L "py:nop") [(L "test", L "z")] []]]]].
Proof. reflexivity. Qed.
Example C41_forms_example : exists x y, directives = x ++ (L "py:for", L "each") :: y /\
  (forall d', In d' (x ++ [(L "py:for", L "each")]) -> has_attr (fst d') [(L "py:if", L "x"); (L "id", L "i")] = false).
Proof.
  exists (firstn 4 directives), (skipn 5 directives). split; [reflexivity|].
  intros d' I. cbn in I. repeat (destruct I as [<-|I]; [reflexivity|]). destruct I.
Qed.
(** Not in a document that begins with a comment: its directives stay as they are. *)
Theorem C41_leading_refuted : exists d n, d_children (transform true d) = [DComment 1 (L "c"); n] /\
  n = DElem 2 (L "a") [(L "py:if", L "x")] [] /\ ~ well_placed n.
Proof.
  exists (Document [] [DComment 1 (L "c"); DElem 2 (L "a") [(L "py:if", L "x")] []]). eexists. split; [reflexivity|]. split; [reflexivity|].
  intros W. destruct (W 2 (L "a") [(L "py:if", L "x")] [] (ei_here _ _ _ _)) as [H _].
  specialize (H (L "py:if")). cbn in H. discriminate H. unfold directive_name. cbn. tauto.
Qed.
Print Assumptions C41_leading_refuted.
