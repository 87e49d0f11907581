(** * Properties of character references (C19, C20, C59, C60) *)

From Coq Require Import Ascii String List NArith ZArith Bool Lia.
From Verif Require Import PyStr M_Html5 M_Entities S_Entities P_Entities P_Entities2.
Import ListNotations.
Open Scope list_scope.

(** ** C19: the text of scripts *)

(** What the parser puts in the tree for a text is that text with the characters [&], [<]
    and [>] escaped, and [unescape] gives the text back, whatever it contains. *)
Theorem C19_round_trip : forall text,
  characters false text = (xml_text text, true) /\ unescape (xml_text text) = Ok text.
Proof.
  intros t. unfold characters. cbn [negb]. rewrite sax_escape_eq. split; [reflexivity|].
  rewrite <- sax_escape_eq. apply round_trip.
Qed.

(** Text of a CDATA section is left alone. *)
Theorem C19_cdata : forall text, characters true text = (text, false).
Proof. reflexivity. Qed.
Print Assumptions C19_cdata.

Example C19_example :
  unescape (fst (characters false (L "if (a && b < c) x = '&amp; &#x41; &'"))) =
  Ok (L "if (a && b < c) x = '&amp; &#x41; &'").
Proof. vm_compute. reflexivity. Qed.

(** ** C20: entity references in templates *)

(** With or without the semicolon, in text and in CDATA sections; text is escaped. *)
Theorem C20_entity : forall name v, stands_for (name ++ L ";") v ->
  skipped_entity false name = Ok (xml_text v, true) /\
  skipped_entity false (name ++ L ";") = Ok (xml_text v, true) /\
  skipped_entity true name = Ok (v, false) /\
  skipped_entity true (name ++ L ";") = Ok (v, false).
Proof.
  intros name v H. change (L ";") with [c_semi] in *.
  destruct (skipped_any false name v H) as [A B]. destruct (skipped_any true name v H) as [C D].
  unfold characters in *. cbn [negb] in *. rewrite sax_escape_eq in *. auto.
Qed.

(** Every name of the table is reachable: those listed without a semicolon are also listed
    with it, and stand for the same. *)
Theorem C20_complete : forall name v, stands_for name v ->
  exists base, (name = base \/ name = base ++ L ";") /\ stands_for (base ++ L ";") v.
Proof.
  assert (F : forallb (fun kv => suffixb (L ";") (fst kv) ||
      match assoc (fst kv ++ L ";") html5 with Some v => seqb v (snd kv) | None => false end) html5 = true)
    by (vm_cast_no_check (eq_refl true)).
  intros name v H. rewrite forallb_forall in F. specialize (F _ H). cbn [fst snd] in F.
  apply orb_true_iff in F as [F|F].
  - apply PyStrLemmas.suffixb_spec in F. destruct F as [b ->]. exists b. split; [now right | exact H].
  - destruct (assoc (name ++ L ";") html5) as [v'|] eqn:A; [|discriminate].
    apply PyStrLemmas.seqb_eq in F. subst v'. exists name. split; [now left|]. now apply assoc_In.
Qed.

(** A name stands for one thing. *)
Theorem C20_function : forall name v v', stands_for name v -> stands_for name v' -> v = v'.
Proof. intros name v v' A B. apply table_assoc in A. apply table_assoc in B. congruence. Qed.
Print Assumptions C20_function.

(** Anything else is refused. *)
Theorem C20_unknown : forall cdata name, name <> [] -> ~ In c_semi name ->
  (forall v, ~ stands_for (name ++ L ";") v) -> skipped_entity cdata name = Raise "KeyError".
Proof. intros. now apply skipped_unknown. Qed.

Example C20_example :
  stands_for (L "nbsp;") [160%N] /\ skipped_entity false (L "nbsp") = Ok ([160%N], true) /\
  stands_for (L "LT;") [60%N] /\ skipped_entity false (L "LT") = Ok (L "&lt;", true) /\
  skipped_entity false (L "nosuch") = Raise "KeyError".
Proof.
  repeat split; try (vm_compute; reflexivity).
  - apply stands_by_assoc. vm_compute. reflexivity.
  - apply stands_by_assoc. vm_compute. reflexivity.
Qed.

(** ** C59: numeric references in scripts *)

Theorem C59_decimal : forall before digits numeral after, ~ In c_amp before ->
  digits <> [] -> Forall2 dec_char digits numeral ->
  unescape (before ++ L "&#" ++ numeral ++ L ";" ++ after) =
  rmap (app before) (numeric (L "&#" ++ numeral ++ L ";") (value 10 digits) (unescape after)).
Proof.
  intros a ds cs b Na N H. rewrite unescape_plain by assumption. f_equal.
  exact (dec_ref ds cs b H N).
Qed.

Theorem C59_hexadecimal : forall before x digits numeral after, ~ In c_amp before ->
  x = 120%N \/ x = 88%N -> digits <> [] -> Forall2 hex_char digits numeral ->
  unescape (before ++ L "&#" ++ [x] ++ numeral ++ L ";" ++ after) =
  rmap (app before) (numeric (L "&#" ++ [x] ++ numeral ++ L ";") (value 16 digits) (unescape after)).
Proof.
  intros a x ds cs b Na X N H. rewrite unescape_plain by assumption. f_equal.
  refine (hex_ref x ds cs b _ H N). destruct X as [-> | ->]; reflexivity.
Qed.

(** All words after [&#], with a semicolon or without: those that Python reads as a
    number, and the others, which are left as they are. *)
Theorem C59_word : forall before word semi after, ~ In c_amp before ->
  word <> [] -> Forall ascii_word word -> length word <= 32 ->
  semi = L ";" \/ semi = [] /\ name_ends after ->
  (forall n, number_text word n ->
     unescape (before ++ L "&#" ++ word ++ semi ++ after) =
     rmap (app before) (numeric (L "&#" ++ word ++ semi) n (unescape after))) /\
  ((forall n, ~ number_text word n) ->
     unescape (before ++ L "&#" ++ word ++ semi ++ after) =
     rmap (app (before ++ L "&#" ++ word ++ semi)) (unescape after)).
Proof.
  intros a w semi b Na N W Len S.
  assert (U : unescape (L "&#" ++ w ++ semi ++ b) =
    match word_number w with
    | None => rmap (app (L "&#" ++ w ++ semi)) (unescape b)
    | Some n => numeric (L "&#" ++ w ++ semi) n (unescape b)
    end).
  { apply (unescape_hash w semi b N (proj2 (words_spec _) W) Len).
    destruct S as [-> | [-> S]]; [now left | right; split; [reflexivity | now apply stops_spec]]. }
  rewrite unescape_plain by assumption. rewrite U. split.
  - intros n H. apply word_number_spec in H. now rewrite H.
  - intros H. destruct (word_number w) as [n|] eqn:E; [exfalso; now apply (H n), word_number_spec|].
    destruct (unescape b); [|reflexivity]. cbn [rmap]. now rewrite <- !app_assoc.
Qed.

(** The same for everything that is read as a reference, however long the word is: of a
    long one only the first 32 characters are read, and the rest is text. *)
Theorem C59_reference : forall before word semi after, ~ In c_amp before -> reference_text word semi after ->
  (forall n, number_text word n ->
     unescape (before ++ L "&#" ++ word ++ semi ++ after) =
     rmap (app before) (numeric (L "&#" ++ word ++ semi) n (unescape after))) /\
  ((forall n, ~ number_text word n) ->
     unescape (before ++ L "&#" ++ word ++ semi ++ after) =
     rmap (app (before ++ L "&#" ++ word ++ semi)) (unescape after)).
Proof.
  intros a w semi b Na R. rewrite unescape_plain by assumption.
  change (L "&#") with [c_amp; c_hash]. rewrite (number_take w semi b R). split.
  - intros n H. apply word_number_spec in H. now rewrite H.
  - intros H. destruct (word_number w) as [n|] eqn:E; [exfalso; now apply (H n), word_number_spec|].
    destruct (unescape b); [|reflexivity]. cbn [rmap]. now rewrite <- !app_assoc.
Qed.

(** Whatever follows, there is a reference as soon as the next character is a letter, a
    digit or an underscore; so this theorem and the next one tell all about [&#]. *)
Theorem C59_complete : forall y text, ascii_word y ->
  exists word semi after, y :: text = word ++ semi ++ after /\ reference_text word semi after.
Proof. intros y s W. apply reference_exists. now apply is_word_spec. Qed.

Example C59_reference_example :
  reference_text (L "x00000000000000000000000000000041") [] (L "42.") /\
  unescape (L "&#x0000000000000000000000000000004142.") = Ok (L "A42.") /\
  unescape (L "&#x0000000000000000000000000000004142;") = Ok [16706%N] /\
  unescape (L "&#00000000000000000000000000000065g;") = Ok (L "Ag;").
Proof.
  split; [|split; [|split]]; try (vm_compute; reflexivity).
  change (L "x00000000000000000000000000000041") with (L "x" ++ L "00000000000000000000000000000041").
  apply cut_word.
  - right. split; [now left | discriminate].
  - apply words_spec. reflexivity.
  - reflexivity.
  - apply is_word_spec. reflexivity.
  - discriminate.
  - intros n b E F.
    assert (I : In c_semi (n ++ L ";" ++ b)) by (apply in_or_app; right; now left).
    rewrite <- E in I. cbn in I. repeat destruct I as [I|I]; try discriminate I. exact I.
Qed.

(** Nothing that could be a number. *)
Theorem C59_lone : forall before after, ~ In c_amp before ->
  match after with [] => True | y :: _ => ~ ascii_word y end ->
  unescape (before ++ L "&#" ++ after) = rmap (app (before ++ L "&#")) (unescape after).
Proof.
  intros a b Na H. rewrite unescape_plain by assumption. change (L "&#") with [c_amp; c_hash]. rewrite lone_hash.
  - destruct (unescape b); [|reflexivity]. cbn [rmap]. now rewrite <- app_assoc.
  - destruct b as [|y b]; [exact I|]. destruct (is_word y) eqn:W; [|reflexivity].
    apply is_word_spec in W. contradiction.
Qed.

Example C59_word_example :
  number_text (L "X0x_1F") 31 /\ number_text (L "1_0") 10 /\ (forall n, ~ number_text (L "1__0") n) /\
  unescape (L "&#X0x_41 &#6_5; &#1__0; &#;") = Ok (L "A A &#1__0; &#;").
Proof.
  split; [apply word_number_spec; vm_compute; reflexivity|].
  split; [apply word_number_spec; vm_compute; reflexivity|].
  split; [intros n H; apply word_number_spec in H; discriminate H | vm_compute; reflexivity].
Qed.

(** So a number that is too large stops the compilation: [unescape] is not total. *)
Theorem C59_total_refuted : exists text, unescape text = Raise "OverflowError".
Proof. exists (L "&#99999999999;"). vm_compute. reflexivity. Qed.
Print Assumptions C59_total_refuted.

Example C59_example :
  Forall2 dec_char [6; 5]%N (L "65") /\ Forall2 hex_char [1; 15; 10]%N (L "1fA") /\
  unescape (L "a&#65;b&#x1fA;&#x110000;&") = Ok (L "aAb" ++ [506%N] ++ L "&#x110000;&").
Proof.
  split; [|split; [|vm_compute; reflexivity]].
  - repeat constructor.
  - constructor; [left; split; reflexivity|]. constructor; [right; split; [lia | left; reflexivity]|].
    constructor; [right; split; [lia | right; reflexivity]|]. constructor.
Qed.

(** ** C60: named references in scripts *)

Theorem C60_named : forall before name v after, ~ In c_amp before -> stands_for (name ++ L ";") v ->
  unescape (before ++ L "&" ++ name ++ L ";" ++ after) = rmap (app (before ++ v)) (unescape after).
Proof.
  intros a w v b Na H. rewrite unescape_plain by assumption.
  pose proof (unescape_name w v b H) as U. change (L "&") with [c_amp]. change (L ";") with [c_semi].
  rewrite <- app_assoc in U. rewrite U. destruct (unescape b); [|reflexivity]. cbn [rmap]. now rewrite app_assoc.
Qed.

(** The names that HTML also allows without a semicolon: the longest run of letters is
    looked up, then its beginning, of which there is at most one in the table. *)
Theorem C60_bare : forall before name v more after, ~ In c_amp before -> stands_for name v ->
  Forall ascii_word (name ++ more) -> length (name ++ more) <= 32 -> name_ends after ->
  (more = [] \/ forall v', ~ stands_for (name ++ more) v') ->
  unescape (before ++ L "&" ++ name ++ more ++ after) = rmap (app (before ++ v ++ more)) (unescape after).
Proof.
  intros a k v t b Na H W Len E T. rewrite unescape_plain by assumption.
  pose proof (legacy_prefix k v t b H (proj2 (words_spec _) W) Len (stops_spec b E) T) as U.
  change (L "&") with [c_amp]. rewrite <- app_assoc in U. rewrite U.
  destruct (unescape b); [|reflexivity]. cbn [rmap]. now rewrite <- !app_assoc.
Qed.

(** Other names are left as they are. *)
Theorem C60_unknown : forall before name after, ~ In c_amp before -> name <> [] ->
  Forall ascii_word name -> length name <= 32 -> (forall v, ~ stands_for (name ++ L ";") v) ->
  unescape (before ++ L "&" ++ name ++ L ";" ++ after) =
  rmap (app (before ++ L "&" ++ name ++ L ";")) (unescape after).
Proof.
  intros a w b Na N W Len H. rewrite unescape_plain by assumption.
  pose proof (unknown_semi w b N (proj2 (words_spec _) W) Len H) as U.
  change (L "&") with [c_amp]. change (L ";") with [c_semi] in *. rewrite <- app_assoc in U. rewrite U.
  destruct (unescape b); [|reflexivity]. cbn [rmap]. now rewrite <- !app_assoc.
Qed.

Theorem C60_unknown_bare : forall before name after, ~ In c_amp before -> name <> [] ->
  Forall ascii_word name -> length name <= 32 -> name_ends after ->
  (forall start more v, name = start ++ more -> ~ stands_for start v) ->
  unescape (before ++ L "&" ++ name ++ after) = rmap (app (before ++ L "&" ++ name)) (unescape after).
Proof.
  intros a w b Na N W Len E H. rewrite unescape_plain by assumption.
  pose proof (legacy_unknown w b N (proj2 (words_spec _) W) Len (stops_spec b E) H) as U.
  change (L "&") with [c_amp]. rewrite U.
  destruct (unescape b); [|reflexivity]. cbn [rmap]. now rewrite <- !app_assoc.
Qed.

(** The same for everything that is read as a reference. *)
Theorem C60_reference : forall before word semi after, ~ In c_amp before -> reference_text word semi after ->
  (forall v, stands_for (word ++ semi) v ->
     unescape (before ++ L "&" ++ word ++ semi ++ after) = rmap (app (before ++ v)) (unescape after)) /\
  ((forall v, ~ stands_for (word ++ semi) v) ->
     (forall start more v, semi = [] -> word = start ++ more -> stands_for start v ->
        unescape (before ++ L "&" ++ word ++ semi ++ after) = rmap (app (before ++ v ++ more)) (unescape after)) /\
     ((forall start more v, semi = [] -> word = start ++ more -> ~ stands_for start v) ->
        unescape (before ++ L "&" ++ word ++ semi ++ after) =
        rmap (app (before ++ L "&" ++ word ++ semi)) (unescape after))).
Proof.
  intros a w semi b Na R. rewrite unescape_plain by assumption. change (L "&") with [c_amp].
  destruct (name_take w semi b R) as [A B].
  assert (M : forall u, rmap (app a) (rmap (app u) (unescape b)) = rmap (app (a ++ u)) (unescape b)).
  { intros u. destruct (unescape b); [|reflexivity]. cbn [rmap]. now rewrite <- app_assoc. }
  split; [|intros N; destruct (B N) as [B1 B2]; split].
  - intros v V. now rewrite (A v V), M.
  - intros st more v S E V. now rewrite (B1 st more v S E V), M.
  - intros P. now rewrite (B2 P), M.
Qed.

(** An ampersand that no name or [#] follows is left as it is. *)
Theorem C60_lone : forall before after, ~ In c_amp before ->
  match after with [] => True | y :: _ => ~ ascii_word y /\ y <> c_hash end ->
  unescape (before ++ L "&" ++ after) = rmap (app (before ++ L "&")) (unescape after).
Proof.
  intros a b Na H. rewrite unescape_plain by assumption. change (L "&") with [c_amp]. rewrite lone_amp.
  - destruct (unescape b); [|reflexivity]. cbn [rmap]. now rewrite <- app_assoc.
  - destruct b as [|y b]; [exact I|]. destruct H as [A B]. split; [|exact B].
    destruct (is_word y) eqn:W; [|reflexivity]. apply is_word_spec in W. contradiction.
Qed.

Example C60_example :
  stands_for (L "not") [172%N] /\
  unescape (L "x&notin; &notit &copy &nosuch; && ") = Ok (L "x" ++ [8713; 32; 172]%N ++ L "it " ++ [169%N] ++ L " &nosuch; && ").
Proof. split; [apply stands_by_assoc|]; vm_compute; reflexivity. Qed.

Print Assumptions C19_round_trip.
Print Assumptions C20_entity.
Print Assumptions C20_complete.
Print Assumptions C20_unknown.
Print Assumptions C59_decimal.
Print Assumptions C59_hexadecimal.
Print Assumptions C59_word.
Print Assumptions C59_reference.
Print Assumptions C59_complete.
Print Assumptions C59_lone.
Print Assumptions C60_reference.
Print Assumptions C60_named.
Print Assumptions C60_bare.
Print Assumptions C60_unknown.
Print Assumptions C60_unknown_bare.
Print Assumptions C60_lone.
