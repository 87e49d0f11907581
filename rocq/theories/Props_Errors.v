(** * Property C56: error excerpts *)

From Coq Require Import Ascii String List NArith ZArith Bool Lia.
From Verif Require Import PyStr PyStrLemmas M_Values M_Errors S_Errors P_Errors.
Import ListNotations.
Open Scope list_scope.

(** C56.  For every source and every line number, the excerpt consists of five rows:
    the reported line is the marked one, the others are its neighbours, blank
    where the source has no such line. *)
Theorem C56_excerpt : forall source n, only_newlines source ->
  split_c c_nl (source_snippet source n) = excerpt_rows (line_text source) n ++ [[]].
Proof.
  intros s n H. rewrite snippet_rows, split_rows.
  - unfold excerpt_rows. now rewrite !get_source_line_text by auto.
  - unfold excerpt_rows. repeat constructor; intros I; apply in_app_or in I; destruct I as [[I|[]]|I]; try discriminate;
      apply in_app_or in I; destruct I as [I|I];
      [repeat (destruct I as [I|I]; [discriminate|]); contradiction| apply get_source_line_no_break in I; discriminate
      |repeat (destruct I as [I|I]; [discriminate|]); contradiction| apply get_source_line_no_break in I; discriminate
      |repeat (destruct I as [I|I]; [discriminate|]); contradiction| apply get_source_line_no_break in I; discriminate
      |repeat (destruct I as [I|I]; [discriminate|]); contradiction| apply get_source_line_no_break in I; discriminate
      |repeat (destruct I as [I|I]; [discriminate|]); contradiction| apply get_source_line_no_break in I; discriminate].
Qed.
Print Assumptions C56_excerpt.

(** Sources with other line boundaries (carriage returns, form feeds, ...): there the
    lines are those of str.splitlines; still five rows. *)
Theorem C56_always_five_rows : forall source n,
  exists line, split_c c_nl (source_snippet source n) = excerpt_rows line n ++ [[]] /\
    forall k, (1 <= k)%Z -> line k = nth (Z.to_nat (k - 1)) (splitlines source) [].
Proof.
  intros s n. exists (fun k => get_source_line s (k - 1)). split.
  - rewrite snippet_rows. apply split_rows. unfold excerpt_rows.
    assert (G : forall mark k, ~ In c_nl mark -> ~ In c_nl ([c_tab] ++ mark ++ get_source_line s k)).
    { intros mark k M I. apply in_app_or in I; destruct I as [[I|[]]|I]; [discriminate|].
      apply in_app_or in I; destruct I as [I|I]; [auto|]. apply get_source_line_no_break in I. discriminate. }
    repeat constructor; apply G; simpl; intros I; repeat (destruct I as [I|I]; [discriminate|]); contradiction.
  - intros k K. unfold get_source_line. destruct (Z.ltb_spec (k - 1) 0); [lia|].
    destruct (nth_error (splitlines s) (Z.to_nat (k - 1))) eqn:E.
    + symmetry. now apply nth_error_nth.
    + symmetry. apply nth_overflow. now apply nth_error_None.
Qed.
Print Assumptions C56_always_five_rows.

(** The message of the error is these rows after one that names the file and the same
    line, and says what is wrong. *)
Theorem C56_message : forall msg source filename n, only_newlines source ->
  ~ In c_nl filename -> ~ In c_nl msg ->
  exists numeral, digits_only numeral /\ number_of numeral = n /\
    split_c c_nl (error_message dec_Z msg source filename (Z.of_N n)) =
    (L "[" ++ filename ++ L ":" ++ numeral ++ L "] " ++ msg) :: excerpt_rows (line_text source) (Z.of_N n) ++ [[]].
Proof.
  intros msg s f n H Nf Nm. exists (dec n).
  assert (D : digits_only (dec n)).
  { split; [apply dec_nonempty|]. apply Forall_forall. intros c I. pose proof (dec_digits n) as D.
    rewrite forallb_forall in D. specialize (D c I). unfold is_digit in D. apply andb_true_iff in D as [A B].
    apply N.leb_le in A, B. lia. }
  assert (U : forall t v, undec v t = fold_left (fun n c => 10 * n + (c - 48))%N t v) by (induction t; cbn; auto).
  split; [exact D|]. split; [unfold number_of; now rewrite <- U, undec_dec|].
  assert (E : dec_Z (Z.of_N n) = dec n) by (destruct n; reflexivity).
  rewrite <- C56_excerpt by assumption. unfold error_message. rewrite E.
  transitivity (split_c c_nl ((L "[" ++ f ++ L ":" ++ dec n ++ L "] " ++ msg) ++ c_nl :: source_snippet s (Z.of_N n))).
  - f_equal. rewrite <- !app_assoc. reflexivity.
  - unfold split_c. rewrite split_c_app; [reflexivity|].
    intros I. repeat (apply in_app_or in I; destruct I as [I|I]); try (now repeat (destruct I as [I|I]; [discriminate|])); auto.
    destruct D as [_ D]. rewrite Forall_forall in D. specialize (D _ I). change c_nl with 10%N in D. lia.
Qed.
Print Assumptions C56_message.

Example C56_example :
  only_newlines (L "one" ++ [c_nl] ++ L "two" ++ [c_nl; c_nl] ++ L "four") /\
  error_message dec_Z (L "oops") (L "one" ++ [c_nl] ++ L "two" ++ [c_nl; c_nl] ++ L "four") (L "f.html") 2 =
  L "[f.html:2] oops" ++ [c_nl]
  ++ [c_tab] ++ L "     " ++ [c_nl]
  ++ [c_tab] ++ L "     one" ++ [c_nl]
  ++ [c_tab] ++ L " --> two" ++ [c_nl]
  ++ [c_tab] ++ L "     " ++ [c_nl]
  ++ [c_tab] ++ L "     four" ++ [c_nl].
Proof.
  split; [|vm_compute; reflexivity].
  intros c I. simpl in I. repeat (destruct I as [<-|I]; [intros; first [reflexivity|discriminate]|]). contradiction.
Qed.
