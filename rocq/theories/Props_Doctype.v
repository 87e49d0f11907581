(** * Properties C16, C17 and C57: document type declarations *)

From Coq Require Import Ascii String List Arith NArith Bool Lia.
From Verif Require Import PyStr PyStrLemmas Regex RegexLemmas M_Doctype S_Doctype P_Doctype.
Import ListNotations.
Open Scope list_scope.

(** C16.  The leftmost doctype is returned, with its position and the text around it. *)
Theorem C16_leftmost_doctype : forall s a t b, s = a ++ t ++ b -> is_doctype t ->
  (forall a' t' b', s = a' ++ t' ++ b' -> is_doctype t' -> length a <= length a') ->
  extract_dtd s = (t, length a, a ++ b).
Proof. exact extract_dtd_found. Qed.
Print Assumptions C16_leftmost_doctype.

(** Without one the source is returned as it is. *)
Theorem C16_no_doctype : forall s, no_doctype s -> extract_dtd s = ([], 0, s).
Proof. exact extract_dtd_none. Qed.
Print Assumptions C16_no_doctype.

(** These two cases are all there are. *)
Theorem C16_exhaustive : forall s, no_doctype s \/
  exists a t b, s = a ++ t ++ b /\ is_doctype t /\
    (forall a' t' b', s = a' ++ t' ++ b' -> is_doctype t' -> length a <= length a').
Proof. exact doctype_dec. Qed.
Print Assumptions C16_exhaustive.

(** Putting the text back gives the source, for every source. *)
Theorem C16_put_back : forall s,
  let '(t, position, rest) := extract_dtd s in
  firstn position rest ++ t ++ skipn position rest = s.
Proof.
  intros s. destruct (doctype_dec s) as [N|(a & t & b & E & D & F)].
  - rewrite extract_dtd_none by auto. reflexivity.
  - rewrite (extract_dtd_found s a t b E D F).
    rewrite firstn_app, skipn_app, firstn_all, skipn_all, Nat.sub_diag. simpl. now rewrite app_nil_r.
Qed.
Print Assumptions C16_put_back.

Example C16_example :
  is_doctype (L "<!DOCTYPE html>") /\
  extract_dtd (L "<!-- <!DOCTYPE> --><!DOCTYPE html><p><!DOCTYPE html></p>")
  = (L "<!DOCTYPE html>"%string, 19, L "<!-- <!DOCTYPE> --><p><!DOCTYPE html></p>").
Proof.
  split; [|vm_compute; reflexivity]. exists (L " html"). split; [reflexivity|]. split; [discriminate|].
  simpl. intros H. repeat destruct H as [H|H]; try discriminate; auto.
Qed.

(** C17.  Every registered DTD but the two named below is recognised in any spacing
    and case, with any text after it, and gives the rendering mode unless one is asked for. *)
Lemma rewritten_lower : forall s t, rewritten same_letter s t -> Forall (fun c => (c < 128)%N) s ->
  rewritten normalise_ci s t.
Proof.
  induction 1; intros F; inversion F; subst; constructor; auto.
  apply (proj1 (lower_ci_gen x y H4)). exact H0.
Qed.

Lemma public_ascii : forall d, In d public_dtds -> Forall (fun c => (c < 128)%N) (dtd_str d).
Proof.
  intros d I. apply Forall_forall. intros c C. revert c C. apply Forall_forall.
  assert (B : forallb (fun c => N.ltb c 128) (dtd_str d) = true).
  { unfold public_dtds in I. repeat (destruct I as [<-|I]; [vm_compute; reflexivity|]). destruct I. }
  apply Forall_forall. intros c C. rewrite forallb_forall in B. apply N.ltb_lt. auto.
Qed.

Theorem C17_recognised : forall d t rest, In d public_dtds -> d <> dtd_xhtml5 -> d <> dtd_xhtml1rdfa ->
  rewritten same_letter (dtd_str d) t -> matching (t ++ rest) = Some d.
Proof.
  intros d t rest I N5 NR R. apply matching_known; auto. apply rewritten_lower; auto. now apply public_ascii.
Qed.
Print Assumptions C17_recognised.

Theorem C17_rendering_mode : forall d t rest, In d public_dtds -> d <> dtd_xhtml5 -> d <> dtd_xhtml1rdfa ->
  rewritten same_letter (dtd_str d) t ->
  rendering_mode None (t ++ rest) = dtd_mode d /\
  forall m, m <> [] -> rendering_mode (Some m) (t ++ rest) = m.
Proof.
  intros d t rest I N5 NR R. split.
  - unfold rendering_mode. now rewrite (C17_recognised d t rest).
  - intros [|c m]; [congruence|reflexivity].
Qed.
Print Assumptions C17_rendering_mode.

(** The same for a list of doctypes given independently of the table of the code. *)
Theorem C17_standard_doctypes : forall text mode t rest, In (text, mode) standard_doctypes ->
  rewritten same_letter text t ->
  (exists d, matching (t ++ rest) = Some d /\ dtd_str d = text) /\ rendering_mode None (t ++ rest) = mode.
Proof.
  intros text mode t rest I R.
  assert (K : exists d, In d public_dtds /\ d <> dtd_xhtml5 /\ d <> dtd_xhtml1rdfa /\ dtd_str d = text /\ dtd_mode d = mode).
  { unfold standard_doctypes in I. cbn [In] in I.
    repeat (destruct I as [I|I];
      [injection I as <- <-;
       match goal with |- exists d, In d public_dtds /\ _ /\ _ /\ dtd_str d = ?t /\ _ =>
         let r := eval vm_compute in (List.find (fun d => seqb (dtd_str d) t) public_dtds) in
         match r with Some ?d => exists d end end;
       split; [vm_compute; tauto|]; split; [discriminate|]; split; [discriminate|]; split; reflexivity|]).
    destruct I. }
  destruct K as (d & I1 & N5 & NR & E & M). subst text mode. split.
  - exists d. split; [|reflexivity]. now apply C17_recognised.
  - now apply C17_rendering_mode.
Qed.
Print Assumptions C17_standard_doctypes.

(** Nothing else is recognised: what is recognised is a rewriting of the DTD's text
    (with the few extra characters that re.IGNORECASE identifies with ASCII letters). *)
Theorem C17_only_known : forall s d, matching s = Some d -> d <> dtd_xhtml1rdfa ->
  In d public_dtds /\ d <> dtd_xhtml5 /\
  exists t rest, s = t ++ rest /\ rewritten same_letter_re (dtd_str d) t.
Proof.
  intros s d H N. destruct (matching_only s d H N) as (I & N5 & t & rest & E & R).
  repeat split; auto. exists t, rest; split; auto.
  pose proof (public_ascii d I) as A. clear - R A.
  induction R; inversion A; subst; constructor; auto.
  now apply (proj2 (lower_ci_gen x y H3)).
Qed.
Print Assumptions C17_only_known.

Theorem C17_unknown_is_xml : forall s, matching s = None -> rendering_mode None s = L "xml".
Proof. intros s H. unfold rendering_mode. now rewrite H. Qed.
Print Assumptions C17_unknown_is_xml.

(** The XHTML+RDFa doctype is not recognised, since its plus sign is a pattern
    operator: not even in its own spelling. *)
Theorem C17_rdfa_refuted : In dtd_xhtml1rdfa public_dtds /\ matching (dtd_str dtd_xhtml1rdfa) = None.
Proof. split; [unfold public_dtds; simpl; auto 8|vm_compute; reflexivity]. Qed.
Print Assumptions C17_rdfa_refuted.

(** The doctype of xhtml5 is that of html5, which comes first. *)
Theorem C17_xhtml5_refuted : In dtd_xhtml5 public_dtds /\ dtd_str dtd_xhtml5 = dtd_str dtd_html5 /\
  dtd_mode dtd_xhtml5 = L "xml" /\ dtd_mode dtd_html5 = L "html5" /\
  forall s, matching s <> Some dtd_xhtml5.
Proof.
  split; [unfold public_dtds; simpl; auto|]. split; [reflexivity|]. split; [reflexivity|]. split; [reflexivity|].
  intros s H. destruct (matching_only s dtd_xhtml5 H) as (_ & N & _); [discriminate|congruence].
Qed.
Print Assumptions C17_xhtml5_refuted.

Example C17_example :
  rewritten same_letter (dtd_str dtd_html5) (L "<!doctype" ++ [9; 10; 32]%N ++ L "HTML>") /\
  matching (L "<!doctype" ++ [9; 10; 32]%N ++ L "HTML>" ++ L "<p/>") = Some dtd_html5 /\
  rendering_mode None (L "<!DOCTYPE HTML PUBLIC ""-//W3C//DTD HTML 4.01//EN""   ""http://www.w3.org/TR/html4/strict.dtd"">") = L "html".
Proof.
  repeat split; try (vm_compute; reflexivity).
  change (dtd_str dtd_html5) with (L "<!DOCTYPE" ++ [c_sp] ++ L "html>").
  cbn. repeat (apply rw_char; [discriminate|reflexivity|]).
  change [9; 10; 32; 72; 84; 77; 76; 62]%N with ([9; 10; 32]%N ++ [72; 84; 77; 76; 62]%N).
  apply rw_space; [discriminate|reflexivity|].
  repeat (apply rw_char; [discriminate|reflexivity|]). constructor.
Qed.

(** C57.  What the XML parser reads is the source with kajiki's own doctype in the
    place of the user's.  A position after the doctype moves up by as many lines as the
    doctype has line breaks. *)
Theorem C57_shift : forall a t b, is_doctype t ->
  (forall a' t' b', a ++ t ++ b = a' ++ t' ++ b' -> is_doctype t' -> length a <= length a') ->
  fst (parser_source (a ++ t ++ b)) = t /\
  snd (parser_source (a ++ t ++ b)) = a ++ entity_doctype ++ b /\
  (forall k, k <= length b ->
    line_number (snd (parser_source (a ++ t ++ b))) (length a + length entity_doctype + k) + count c_nl t =
    line_number (a ++ t ++ b) (length a + length t + k)) /\
  (forall k, k <= length a ->
    line_number (snd (parser_source (a ++ t ++ b))) k = line_number (a ++ t ++ b) k).
Proof.
  intros a t b D F.
  assert (E : parser_source (a ++ t ++ b) = (t, a ++ entity_doctype ++ b)).
  { unfold parser_source. rewrite (extract_dtd_found _ a t b eq_refl D F).
    rewrite firstn_app, skipn_app, firstn_all, skipn_all, Nat.sub_diag.
    cbn [firstn skipn]. rewrite app_nil_r. reflexivity. }
  rewrite E. cbn [fst snd]. repeat split.
  - intros k K. unfold line_number.
    rewrite <- !Nat.add_assoc, !firstn_app_2, !count_app.
    change (count c_nl entity_doctype) with 0. lia.
  - intros k K. unfold line_number. rewrite !firstn_app.
    replace (k - length a) with 0 by lia. reflexivity.
Qed.
Print Assumptions C57_shift.

(** So line numbers are right for a source whose doctype is on one line ... *)
Theorem C57_one_line_doctype : forall a t b, is_doctype t -> ~ In c_nl t ->
  (forall a' t' b', a ++ t ++ b = a' ++ t' ++ b' -> is_doctype t' -> length a <= length a') ->
  forall k, k <= length b ->
    line_number (snd (parser_source (a ++ t ++ b))) (length a + length entity_doctype + k) =
    line_number (a ++ t ++ b) (length a + length t + k).
Proof.
  intros a t b D N F k K. destruct (C57_shift a t b D F) as (_ & _ & S & _).
  rewrite <- (S k K). apply count_zero in N. rewrite N. lia.
Qed.
Print Assumptions C57_one_line_doctype.

(** ... or that has none ... *)
Theorem C57_no_doctype : forall s, no_doctype s ->
  snd (parser_source s) = entity_doctype ++ s /\
  forall k, line_number (snd (parser_source s)) (length entity_doctype + k) = line_number s k.
Proof.
  intros s N. assert (E : parser_source s = ([], entity_doctype ++ s)).
  { unfold parser_source. rewrite extract_dtd_none by auto. reflexivity. }
  rewrite E. split; [reflexivity|]. intros k. unfold line_number. cbn [snd].
  rewrite firstn_app_2, count_app. reflexivity.
Qed.
Print Assumptions C57_no_doctype.

(** ... and wrong for one with a doctype of several lines. *)
Theorem C57_refuted : exists a t b k, is_doctype t /\ k <= length b /\
  parser_source (a ++ t ++ b) = (t, a ++ entity_doctype ++ b) /\
  line_number (a ++ entity_doctype ++ b) (length a + length entity_doctype + k) <>
  line_number (a ++ t ++ b) (length a + length t + k).
Proof.
  exists [], (L "<!DOCTYPE" ++ [c_nl] ++ L "html>"), (L "<p>$x</p>"), 3.
  split; [|split; [simpl; lia|split; [vm_compute; reflexivity|vm_compute; discriminate]]].
  exists ([c_nl] ++ L "html"). split; [reflexivity|]. split; [discriminate|].
  simpl. intros H. repeat destruct H as [H|H]; try discriminate; auto.
Qed.
Print Assumptions C57_refuted.

Example C57_example :
  line_number (L "<!DOCTYPE html>" ++ [c_nl] ++ L "<p>" ++ [c_nl] ++ L "$x</p>") 20 = 3 /\
  snd (parser_source (L "<!DOCTYPE html>" ++ [c_nl] ++ L "<p>" ++ [c_nl] ++ L "$x</p>"))
  = L "<!DOCTYPE kajiki SYSTEM ""kajiki.dtd"">" ++ [c_nl] ++ L "<p>" ++ [c_nl] ++ L "$x</p>".
Proof. split; vm_compute; reflexivity. Qed.
