(** * Text templates: the scanner follows the grammar *)

From Coq Require Import Ascii String List Arith NArith ZArith Bool Lia.
From Verif Require Import PyStr PyStrLemmas Regex RegexLemmas M_IR M_Text S_Text P_Text P_Text2.
Import ListNotations.
Open Scope list_scope.

Lemma skip_skip : forall {A} a b (l : list A), skipn a (skipn b l) = skipn (b + a) l.
Proof. intros A a b. induction b as [|b IH]; intros l; [reflexivity|]. destruct l as [|x l]; [now rewrite !skipn_nil|]. apply IH. Qed.

(** No exception and no [None] among the tokens. *)
Definition tok_ok (t : tok) : Prop := match t with TRaise _ | TNone => False | _ => True end.

Section Scanner.
Variable compile : str -> compiled.
Variable source : str.

Notation loop := (scan_loop compile source).
Notation prv := (prev_at source).
Notation rst i := (skipn i source).

(** Positions. *)
Lemma here : forall i u v, i <= length source -> rst i = u ++ v ->
  rst (i + length u) = v /\ prv (i + length u) = last_of (prv i) u /\ i + length u <= length source.
Proof.
  intros i u v Hi E. assert (S1 : source = (firstn i source ++ u) ++ v).
  { rewrite <- app_assoc, <- E. symmetry. apply firstn_skipn. }
  assert (L1 : length (firstn i source ++ u) = i + length u) by (rewrite app_length, firstn_length; lia).
  split; [|split].
  - rewrite S1 at 1. rewrite <- L1. apply skipn_pre.
  - assert (F1 : firstn (i + length u) source = firstn i source ++ u).
    { rewrite <- L1. rewrite S1 at 2. now rewrite firstn_app, Nat.sub_diag, firstn_all, app_nil_r. }
    unfold prev_at. rewrite F1. unfold last_of. now rewrite fold_left_app.
  - rewrite S1 at 1. rewrite app_length. lia.
Qed.
Lemma split_at : forall i j, i <= j -> j <= length source ->
  rst i = slice i j source ++ rst j /\ length (slice i j source) = j - i.
Proof.
  intros i j H1 H2. unfold slice. split.
  - rewrite <- (firstn_skipn (j - i) (rst i)) at 1. f_equal. rewrite skip_skip. f_equal. lia.
  - rewrite firstn_length, skipn_length. lia.
Qed.
Lemma slice_prefix : forall i u v, rst i = u ++ v -> slice i (i + length u) source = u.
Proof.
  intros i u v E. unfold slice. rewrite E. replace (i + length u - i) with (length u) by lia.
  now rewrite firstn_app, Nat.sub_diag, firstn_all, app_nil_r.
Qed.

Definition at_pos (i : nat) := directive (prv i) (rst i).
Lemma match_at_pos : forall i, match_pos text_pattern source i = at_pos i.
Proof. intros i. unfold match_pos. apply pattern_directive. Qed.

(** Whatever the pattern finds between [f] and [q] ends before [q]. *)
Definition inside (f q : nat) : Prop :=
  forall i rest g t, f <= i -> i < q -> at_pos i = Some (rest, [(g, t)]) -> i + (length (rst i) - length rest) < q.

(** What is done with a match once the text before it is out. *)
Definition act (m : mobj) (ms' : list mobj) (pos ln : nat) : list tok :=
  let moving (k : nat -> list tok) :=
    if Nat.leb pos (mend m) then k (mend m) else [TRaise "AssertionError"] in
  let yielding (r : result (nat * nat * tok)) :=
    match r with
    | Raise e => [TRaise e]
    | Ok (pos', ln', t) => t :: loop ms' pos' ln'
    end in
  match group m 3, group m 2, group m 1, group m 5, group m 8, group m 7, group m 6 with
  | Some _, _, _, _, _, _, _ => moving (fun pos => yielding (get_braced_expr compile source pos ln))
  | _, Some e, _, _, _, _, _ =>
      moving (fun pos => let (ln', t) := expr_tok ln e in yielding (Ok (pos, ln', t)))
  | _, _, Some _, _, _, _, _ =>
      moving (fun pos => let (ln', t) := text_tok ln (L "$") in yielding (Ok (pos, ln', t)))
  | _, _, _, Some tag, _, _, _ => moving (fun pos => yielding (Ok (get_tag_bare source tag pos ln)))
  | _, _, _, _, Some tag, _, _ => moving (fun pos => yielding (get_tag source tag pos ln))
  | _, _, _, _, _, Some tag, _ => moving (fun pos => yielding (get_tag source tag pos ln))
  | _, _, _, _, _, _, Some _ => loop ms' pos ln
  | _, _, _, _, _, _, _ => [TRaise "AssertionError"]
  end.
Lemma loop_cons : forall m ms q ln, loop (m :: ms) q ln =
  if Nat.ltb q (mstart m)
  then TText (ln + count_nl (slice q (mstart m) source)) (slice q (mstart m) source)
       :: act m ms (mstart m) (ln + count_nl (slice q (mstart m) source))
  else act m ms q ln.
Proof. intros m ms q ln. cbn [scan_loop]. destruct (Nat.ltb q (mstart m)); reflexivity. Qed.

(** A match that ends before the position raises. *)
Lemma act_back : forall m ms q ln g t, mcaps m = [(g, t)] -> g <> 6 -> mend m < q ->
  act m ms q ln = [TRaise "AssertionError"].
Proof.
  intros m ms q ln g t E Ng H. unfold act, group. rewrite E. cbn [List.find fst option_map].
  apply Nat.leb_gt in H. rewrite H.
  repeat match goal with |- context [Nat.eqb g ?k] => destruct (Nat.eqb_spec g k); [subst; cbn [option_map snd]; try reflexivity; try congruence|cbn [option_map]] end.
  all: try reflexivity.
Qed.

(** Past the end, after a last line that is a tag. *)
Lemma scan_over : forall ms f q ln, fmatches text_pattern source f ms -> length source < q ->
  Forall tok_ok (loop ms q ln) -> loop ms q ln = [TText ln []].
Proof.
  induction ms as [|m ms IH]; intros f q ln F Hq O.
  - cbn [scan_loop]. destruct (Nat.eqb_spec q (length source)); [lia|].
    rewrite skipn_all2 by lia. unfold text_tok. cbn. now rewrite Nat.add_0_r.
  - inversion F as [|f' m' ms' rest H1 H2 H3 H4 H5 H6]; subst. rewrite match_at_pos in H4.
    destruct (directive_case _ _ _ _ H4) as (g & t & E & D).
    rewrite loop_cons in *. assert (Nat.ltb q (mstart m) = false) as Lq by (apply Nat.ltb_ge; lia). rewrite Lq in *.
    assert (Le : mend m < q). { rewrite H5, skipn_length. lia. }
    destruct (Nat.eq_dec g 6) as [->|Ng].
    + assert (A : act m ms q ln = loop ms q ln) by (unfold act, group; rewrite E; reflexivity).
      rewrite A in *. eapply IH; eassumption.
    + rewrite (act_back m ms q ln g t E Ng Le) in O. inversion O as [|? ? X]. destruct X.
Qed.

Lemma last_of_app : forall p u v, last_of p (u ++ v) = last_of (last_of p u) v.
Proof. intros. unfold last_of. apply fold_left_app. Qed.

Lemma letters_no_nl : forall t, Forall letter t -> count_nl t = 0.
Proof.
  intros t H. unfold count_nl. induction H as [|x t Hx H IH]; [reflexivity|]. cbn [count].
  destruct (N.eqb_spec x c_nl) as [->|]; [discriminate|]. now rewrite IH.
Qed.
Lemma names_no_nl : forall t, starred name_rest t -> count_nl t = 0.
Proof.
  intros t H. unfold count_nl. induction H as [|x t Hx H IH]; [reflexivity|]. cbn [count].
  destruct (N.eqb_spec x c_nl) as [->|]; [discriminate|]. now rewrite IH.
Qed.

(** A match inside what was skipped ends inside it. *)
Lemma matched_inside : forall i rest g t q, i < q -> i <= length source ->
  at_pos i = Some (rest, [(g, t)]) -> q <= length source ->
  (forall u, rst i = u ++ rest -> ~ In c_rbrace u -> (In c_nl u -> line_start (prv i)) -> length u < q - i) ->
  i + (length (rst i) - length rest) < q.
Proof.
  intros i rest g t q H Hi A Hq K. destruct (directive_case _ _ _ _ A) as (g' & t' & _ & D).
  destruct (case_text _ _ _ _ _ D) as (u & E & B & Nl). specialize (K u E B Nl).
  rewrite E, app_length. lia.
Qed.

Lemma app_long : forall (a u c v : str), a ++ v = u ++ c -> length a <= length u -> exists w, u = a ++ w.
Proof.
  induction a as [|x a IH]; intros u c v E H; [now exists u|].
  destruct u as [|y u]; [cbn in H; lia|]. cbn in E. injection E as -> E.
  destruct (IH u c v E) as (w & ->); [cbn in H; lia|]. now exists w.
Qed.

Lemma brace_inside : forall i q rest g t, i < q -> q <= length source -> at_pos i = Some (rest, [(g, t)]) ->
  (exists e v, rst i = e ++ L "}" ++ v /\ length e + 1 = q - i) ->
  i + (length (rst i) - length rest) < q.
Proof.
  intros i q rest g t H Hq A (e & v & E & Le). apply (matched_inside i rest g t q); try assumption; [lia|].
  intros u Eu Nb _. destruct (Nat.lt_ge_cases (length u) (q - i)) as [?|Ge]; [assumption|exfalso].
  assert (X : (e ++ L "}") ++ v = u ++ rest) by (rewrite <- app_assoc, <- E; exact Eu).
  destruct (app_long _ _ _ _ X) as (w & ->); [rewrite app_length; cbn; lia|].
  apply Nb. rewrite !in_app_iff. left. right. now left.
Qed.

Lemma last_not_start : forall w p, ~ line_start p -> ~ In c_nl w -> ~ line_start (last_of p w).
Proof.
  induction w as [|x w IH]; intros p Hp Hw; [exact Hp|]. cbn. apply IH.
  - intros [|]; [discriminate|]. assert (x = c_nl) by congruence. subst. apply Hw. now left.
  - intros ?. apply Hw. now right.
Qed.
Lemma letters_not_start : forall t p, t <> [] -> Forall letter t -> ~ line_start (last_of p t).
Proof.
  intros [|x t] p Ne H; [congruence|]. cbn. inversion H; subst. apply last_not_start.
  - intros [|]; [discriminate|]. assert (x = c_nl) by congruence. subst. discriminate.
  - intros I1. match goal with h : Forall letter t |- _ => rewrite Forall_forall in h; apply h in I1 end. discriminate.
Qed.

(** A line tag: the pattern goes on at [p], the scanner after the line. *)
Lemma inside_line : forall p body v, p <= length source -> rst p = body ++ [c_nl] ++ v -> ~ In c_nl body ->
  ~ line_start (prv p) -> inside p (p + length body + 1).
Proof.
  intros p body v Hp E Nb Np. intros i rest g t H1 H2 A.
  assert (Hq : p + length body + 1 <= length source).
  { destruct (here p (body ++ [c_nl]) v Hp) as (_ & _ & X); [now rewrite <- app_assoc|]. rewrite app_length in X. cbn in X. lia. }
  apply (matched_inside i rest g t); try assumption; [lia|].
  intros u Eu _ Nl. destruct (Nat.lt_ge_cases (length u) (p + length body + 1 - i)) as [?|Ge]; [assumption|exfalso].
  set (k := i - p) in *. assert (Ek : body = firstn k body ++ skipn k body) by (symmetry; apply firstn_skipn).
  assert (Lk : length (firstn k body) = k) by (rewrite firstn_length; lia).
  destruct (here p (firstn k body) (skipn k body ++ [c_nl] ++ v) Hp) as (R & P & _).
  { rewrite E, Ek at 1. now rewrite <- app_assoc. }
  rewrite Lk in R, P. replace (p + k) with i in * by lia.
  assert (X : (skipn k body ++ [c_nl]) ++ v = u ++ rest) by (rewrite <- app_assoc, <- R; exact Eu).
  destruct (app_long _ _ _ _ X) as (w & ->); [rewrite app_length, skipn_length; cbn; lia|].
  assert (line_start (prv i)) as Bad by (apply Nl; rewrite !in_app_iff; left; right; now left).
  rewrite P in Bad. revert Bad. apply last_not_start; [exact Np|].
  intros I1. apply Nb. rewrite Ek. apply in_or_app. now left.
Qed.

(** A tag in braces. *)
Lemma inside_tag : forall p b bl v, p <= length source -> rst p = b ++ L "}" ++ bl ++ v -> Forall blank bl ->
  inside p (p + length b + 1 + length bl).
Proof.
  intros p b bl v Hp E Bl. intros i rest g t H1 H2 A.
  destruct (here p (b ++ L "}") (bl ++ v) Hp) as (R & P & Q); [now rewrite <- app_assoc|].
  rewrite app_length in R, P, Q. cbn [length L] in R, P, Q.
  destruct (Nat.lt_ge_cases i (p + length b + 1)) as [Lt|Ge].
  - enough (i + (length (rst i) - length rest) < p + length b + 1) by lia.
    apply (brace_inside i _ rest g t); try assumption; [lia|].
    exists (skipn (i - p) b), (bl ++ v). split; [|rewrite skipn_length; lia].
    destruct (here p (firstn (i - p) b) (skipn (i - p) b ++ L "}" ++ bl ++ v) Hp) as (R' & _).
    { rewrite E. rewrite <- (firstn_skipn (i - p) b) at 1. now rewrite <- app_assoc. }
    rewrite firstn_length in R'. replace (p + Nat.min (i - p) (length b)) with i in R' by lia. exact R'.
  - exfalso. set (k := i - (p + length b + 1)) in *.
    assert (Ek : bl = firstn k bl ++ skipn k bl) by (symmetry; apply firstn_skipn).
    destruct (here (p + (length b + 1)) (firstn k bl) (skipn k bl ++ v)) as (R' & P' & _); [lia| |].
    { rewrite R. rewrite Ek at 1. now rewrite <- app_assoc. }
    rewrite firstn_length in R', P'. replace (p + (length b + 1) + Nat.min k (length bl)) with i in * by lia.
    assert (Fk : Forall blank (firstn k bl) /\ Forall blank (skipn k bl)) by (apply Forall_app; now rewrite <- Ek).
    destruct Fk as [F1 F2]. assert (Lk : length (skipn k bl) <> 0) by (rewrite skipn_length; lia).
    destruct (skipn k bl) as [|x w]; [now apply Lk|]. inversion F2; subst.
    destruct (directive_case _ _ _ _ A) as (g' & t' & _ & D). rewrite R' in D. cbn [app] in D.
    apply case_blank in D; [|assumption]. rewrite P' in D. revert D. apply last_not_start.
    + rewrite P, last_of_app. cbn. intros [|]; discriminate.
    + intros I1. rewrite Forall_forall in F1. apply F1 in I1. destruct I1; discriminate.
Qed.

Lemma inside_braced : forall p e v, p <= length source -> rst p = e ++ L "}" ++ v -> inside p (p + length e + 1).
Proof.
  intros p e v Hp E. pose proof (inside_tag p e [] v Hp E (Forall_nil _)) as H. cbn [length] in H. now rewrite Nat.add_0_r in H.
Qed.

Lemma skip_blanks_spec : forall s pos q, skip_blanks pos s = Ok q ->
  exists bl v, s = bl ++ v /\ Forall blank bl /\ v <> [] /\ stops blank v /\ q = pos + length bl.
Proof.
  induction s as [|c s IH]; intros pos q H; cbn in H; [discriminate|].
  destruct (N.eqb c c_sp || N.eqb c c_tab) eqn:E.
  - apply IH in H as (bl & v & -> & F & Ne & St & ->). exists (c :: bl), v.
    split; [reflexivity|]. split; [|split; [exact Ne|split; [exact St|cbn; lia]]].
    constructor; [|exact F]. apply orb_true_iff in E as [E|E]; apply N.eqb_eq in E; [now left|now right].
  - injection H as <-. exists [], (c :: s). split; [reflexivity|]. split; [constructor|]. split; [discriminate|].
    split; [|cbn; lia]. apply orb_false_iff in E as [E1 E2]. intros [E|E]; subst; discriminate.
Qed.

Lemma count_nl_app : forall a b, count_nl (a ++ b) = count_nl a + count_nl b.
Proof. intros a b. unfold count_nl. induction a as [|x a IH]; [reflexivity|]. cbn [app count]. rewrite IH. lia. Qed.

Lemma tag_read : forall name p ln p' ln' t, p <= length source -> Forall letter name -> get_tag source name p ln = Ok (p', ln', t) ->
  exists body dash bl v, rst p = body ++ dash ++ L "%}" ++ bl ++ v /\ tag_close body dash bl v /\ Forall blank bl /\
    find (L "%}") (rst p) = Some (length (body ++ dash)) /\ t = TTag ln name body /\
    p' = p + length (body ++ dash ++ L "%}" ++ bl) /\ ln' = ln + count_nl body.
Proof.
  intros name p ln p' ln' t Hp Ln H. unfold get_tag, find_from in H.
  destruct (find (L "%}") (rst p)) as [j|] eqn:F; [|discriminate]. cbn [option_map] in H.
  destruct (find_Some _ _ _ F) as (b & v & E & Lb). subst j.
  assert (Sl : slice p (p + length b) source = b) by (eapply slice_prefix; exact E). rewrite Sl in H.
  destruct (here p (b ++ L "%}") v Hp) as (R & _ & _); [now rewrite <- app_assoc|].
  rewrite app_length in R. cbn [length L] in R. rewrite Nat.add_assoc in R. rewrite R in H.
  destruct (suffixb (L "-") b) eqn:Sf.
  - apply suffixb_spec in Sf as (body & ->). rewrite app_length in H. cbn [length L] in H.
    rewrite Nat.add_sub, firstn_app, Nat.sub_diag, firstn_all in H. cbn [firstn] in H. rewrite app_nil_r in H.
    unfold rmap, rbind in H. destruct (skip_blanks _ v) as [q|] eqn:Sb; [|discriminate].
    apply skip_blanks_spec in Sb as (bl & v' & -> & Fb & Ne & St & ->). unfold tag_tok in H.
    exists body, (L "-"), bl, v'. split; [now rewrite <- !app_assoc in *|]. split; [now constructor|]. split; [exact Fb|].
    split; [reflexivity|]. assert (t = TTag ln name body) by congruence. split; [assumption|].
    assert (p' = p + (length body + 1) + 2 + length bl) by congruence.
    split; [rewrite !app_length; cbn [length L]; lia|].
    assert (ln' = ln + count_nl (name ++ L " " ++ body)) by congruence. subst ln'.
    rewrite !count_nl_app, (letters_no_nl name Ln). reflexivity.
  - unfold tag_tok in H. exists b, [], [], v. split; [exact E|]. split; [now constructor|]. split; [constructor|].
    split; [now rewrite app_nil_r|]. assert (t = TTag ln name b) by congruence. split; [assumption|].
    assert (p' = p + length b + 2) by congruence. split; [rewrite !app_length; cbn [length L]; lia|].
    assert (ln' = ln + count_nl (name ++ L " " ++ b)) by congruence. subst ln'.
    rewrite !count_nl_app, (letters_no_nl name Ln). reflexivity.
Qed.


(** ** What the pattern finds *)
Lemma lead_letters : forall name body, name <> [] -> Forall letter name -> stops letter body ->
  lead is_az (name ++ body) = true /\ takewhile is_az (name ++ body) = name /\ dropwhile is_az (name ++ body) = body.
Proof.
  intros name body Ne F St. assert (X : takewhile is_az (name ++ body) = name /\ dropwhile is_az (name ++ body) = body).
  { clear Ne. induction F as [|x name Hx F IH].
    - cbn [app]. destruct body as [|y body]; [split; reflexivity|]. cbn in *. unfold letter in St. now destruct (is_az y).
    - cbn. unfold letter in Hx. rewrite Hx. destruct IH as [-> ->]. split; reflexivity. }
  split; [|exact X]. destruct F as [|x name Hx F]; [congruence|exact Hx].
Qed.
Lemma not_dollar : forall ws c v, starred is_space ws -> N.eqb c c_dollar = false -> exists y s', ws ++ c :: v = y :: s' /\ N.eqb y c_dollar = false.
Proof.
  intros ws c v Sw Hc. destruct Sw as [|y ws Hy Sw]; [now exists c, v|]. exists y, (ws ++ c :: v). split; [reflexivity|].
  destruct (space_not y Hy) as (_ & _ & Hd). now rewrite N.eqb_sym.
Qed.
Lemma dir_line : forall prev ws u, line_start prev -> starred is_space ws -> directive prev (ws ++ L "%" ++ u) = Some (tag_name 5 6 u).
Proof.
  intros prev ws u Ls Sw. cbn [L app]. destruct (not_dollar ws (N_of_ascii "%") u Sw eq_refl) as (y & s' & Ey & Hy).
  unfold directive. rewrite Ey, Hy, <- Ey. rewrite (dropwhile_app is_space ws (N_of_ascii "%")) by (exact Sw || reflexivity).
  rewrite (start_is_bol _ Ls). cbn [prefixb andb skipn]. change (N.eqb (N_of_ascii "%") (N_of_ascii "%")) with true. reflexivity.
Qed.
Lemma dir_ljust : forall prev ws name body, line_start prev -> starred is_space ws -> name <> [] -> Forall letter name -> stops letter body ->
  directive prev (ws ++ L "{%-" ++ name ++ body) = Some (body, [(7, name)]).
Proof.
  intros prev ws name body Ls Sw Ne F St. destruct (lead_letters name body Ne F St) as (E1 & E2 & E3). cbn [L app].
  destruct (not_dollar ws (N_of_ascii "{") (N_of_ascii "%" :: N_of_ascii "-" :: name ++ body) Sw eq_refl) as (y & s' & Ey & Hy).
  unfold directive. rewrite Ey, Hy, <- Ey. rewrite (dropwhile_app is_space ws (N_of_ascii "{")) by (exact Sw || reflexivity).
  rewrite (start_is_bol _ Ls). cbn [prefixb andb skipn].
  change (N.eqb (N_of_ascii "%") (N_of_ascii "{")) with false. change (N.eqb (N_of_ascii "{") (N_of_ascii "{")) with true.
  change (N.eqb (N_of_ascii "%") (N_of_ascii "%")) with true. change (N.eqb (N_of_ascii "-") (N_of_ascii "-")) with true.
  cbn [andb]. now rewrite E1, E2, E3.
Qed.
Lemma dir_brace : forall prev name body, name <> [] -> Forall letter name -> stops letter body ->
  directive prev (L "{%" ++ name ++ body) = Some (body, [(8, name)]).
Proof.
  intros prev name body Ne F St. destruct (lead_letters name body Ne F St) as (E1 & E2 & E3).
  assert (Hl : exists x n, name = x :: n /\ letter x) by (destruct F as [|x n Hx F]; [congruence|eauto]).
  unfold directive. cbn [L app]. change (N.eqb (N_of_ascii "{") c_dollar) with false. cbv iota.
  cbn [dropwhile]. change (is_space (N_of_ascii "{")) with false. cbv iota.
  change (prefixb [N_of_ascii "%"] (N_of_ascii "{" :: N_of_ascii "%" :: name ++ body)) with false. rewrite andb_false_r.
  match goal with |- context [prefixb ?a (N_of_ascii "{" :: ?b :: name ++ body)] => assert (X : prefixb a (N_of_ascii "{" :: b :: name ++ body) = false) end.
  { destruct Hl as (x & n & -> & Hx). cbn [prefixb app].
    destruct (N.eqb_spec (N_of_ascii "-") x) as [E|]; [subst x; discriminate Hx|]. repeat rewrite andb_false_r. reflexivity. }
  rewrite X, andb_false_r. cbn [andb]. unfold in_braces. change (prefixb (L "{%") (N_of_ascii "{" :: N_of_ascii "%" :: name ++ body)) with true. cbv iota.
  cbn [skipn]. unfold tag_name. now rewrite E1, E2, E3.
Qed.
Lemma dir_bare : forall prev ws name body, line_start prev -> starred is_space ws -> name <> [] -> Forall letter name -> stops letter body ->
  directive prev (ws ++ L "%" ++ name ++ body) = Some (body, [(5, name)]).
Proof.
  intros prev ws name body Ls Sw Ne F St. destruct (lead_letters name body Ne F St) as (E1 & E2 & E3).
  rewrite dir_line by assumption. unfold tag_name. now rewrite E1, E2, E3.
Qed.
Lemma dir_stray : forall prev ws v, line_start prev -> starred is_space ws -> stops letter v -> directive prev (ws ++ L "%" ++ v) = Some (v, [(6, [])]).
Proof.
  intros prev ws v Ls Sw St. rewrite dir_line by assumption. unfold tag_name. destruct v as [|x v]; [reflexivity|]. cbn in *. unfold letter in St. now destruct (is_az x).
Qed.
Lemma dir_name : forall prev c n s, name_start c = true -> starred name_rest n -> stops (fun c => name_rest c = true) s ->
  directive prev (L "$" ++ (c :: n) ++ s) = Some (s, [(2, c :: n)]).
Proof.
  intros prev c n s Hc Hn Hs. assert (X : takewhile name_rest (n ++ s) = n /\ dropwhile name_rest (n ++ s) = s).
  { induction Hn as [|x n Hx Hn IH].
    - cbn [app]. destruct s as [|y s]; [split; reflexivity|]. cbn in *. now destruct (name_rest y).
    - cbn. rewrite Hx. destruct IH as [-> ->]. split; reflexivity. }
  unfold directive. cbn [L app]. change (N.eqb (N_of_ascii "$") c_dollar) with true. cbv iota. unfold dollar.
  destruct (N.eqb_spec c c_dollar) as [->|]; [discriminate|]. destruct X as [X1 X2]. now rewrite Hc, X1, X2.
Qed.

Lemma match_begins : forall i rest g t, at_pos i = Some (rest, [(g, t)]) -> g <> 6 -> begins (prv i) (rst i).
Proof.
  intros i rest g t A Ng. destruct (directive_case _ _ _ _ A) as (g' & t' & E & D). assert (g' = g) as -> by congruence. assert (t' = t) as -> by congruence.
  clear A E. destruct D as [v|c n v Hc Hn Hv|v|v|ws t v B Sw Ne Lt' Sv|ws v B Sw Sv|ws t v B Sw Ne Lt' Sv|t v Ne Lt' Sv|v].
  - left. eexists. reflexivity.
  - left. eexists. reflexivity.
  - left. eexists. reflexivity.
  - left. eexists. reflexivity.
  - right. right. split; [exact B|]. destruct Lt' as [|c t Hc Lt']; [congruence|]. exists ws, c, (t ++ v). split; [exact Sw|]. split; [exact Hc|]. now left.
  - congruence.
  - right. right. split; [exact B|]. destruct Lt' as [|c t Hc Lt']; [congruence|]. exists ws, c, (t ++ v). split; [exact Sw|]. split; [exact Hc|]. now right.
  - right. left. eexists. reflexivity.
  - right. left. eexists. reflexivity.
Qed.
Lemma match_stray : forall i rest t, at_pos i = Some (rest, [(6, t)]) -> exists head, rst i = head ++ rest /\ stray (prv i) head rest.
Proof.
  intros i rest t A. destruct (directive_case _ _ _ _ A) as (g' & t' & E & D). assert (g' = 6) as -> by congruence.
  clear A E. remember (rst i) as s eqn:Es. remember 6 as six eqn:E6. destruct D; try discriminate.
  exists (ws ++ L "%"). split; [now rewrite <- app_assoc|]. split; [assumption|]. split; [assumption|]. now exists ws.
Qed.
Lemma stray_match : forall prev head v, stray prev head v -> directive prev (head ++ v) = Some (v, [(6, [])]).
Proof. intros prev head v (Ls & St & ws & Sw & ->). rewrite <- app_assoc. now apply dir_stray. Qed.
Lemma no_match : forall i, ~ begins (prv i) (rst i) -> ~ strays (prv i) (rst i) -> at_pos i = None.
Proof.
  intros i Nb Ns. destruct (at_pos i) as [[rest c]|] eqn:A; [|reflexivity]. exfalso. destruct (directive_case _ _ _ _ A) as (g & t & -> & D).
  destruct (Nat.eq_dec g 6) as [->|Ng]; [|now apply Nb, (match_begins i rest g t)].
  apply match_stray in A as (head & E & S). apply Ns. now exists head, rest.
Qed.
Lemma match_no : forall i, at_pos i = None -> ~ begins (prv i) (rst i) /\ ~ strays (prv i) (rst i).
Proof.
  intros i A. split.
  - intros B. apply begins_directive in B as (rest & g & t & D & _). unfold at_pos in A. congruence.
  - intros (head & v & E & S). apply stray_match in S. unfold at_pos in A. rewrite E in A. congruence.
Qed.

(** Nothing begins inside of a stray percent sign. *)
Lemma stray_nothing : forall i rest t j, i <= length source -> at_pos i = Some (rest, [(6, t)]) -> i <= j -> j < i + (length (rst i) - length rest) ->
  ~ begins (prv j) (rst j).
Proof.
  intros i rest t j Hi A Hj1 Hj2 Bg. destruct (match_stray _ _ _ A) as (head & E & Ls & St & ws & Sw & ->).
  rewrite E, !app_length in Hj2. cbn [length L] in Hj2.
  set (k := j - i) in *. assert (Ek : ws = firstn k ws ++ skipn k ws) by (symmetry; apply firstn_skipn).
  destruct (here i (firstn k ws) (skipn k ws ++ L "%" ++ rest) Hi) as (R' & P' & _).
  { rewrite E. rewrite Ek at 1. now rewrite <- !app_assoc. }
  rewrite firstn_length in R', P'. replace (i + Nat.min k (length ws)) with j in * by lia.
  rewrite R', P' in Bg. revert Bg. apply bare_nothing; [|exact St]. unfold starred. rewrite Ek in Sw. now apply Forall_app in Sw.
Qed.

Lemma first_match : forall q ms rest c, q <= length source -> fmatches text_pattern source q ms -> at_pos q = Some (rest, c) ->
  exists m ms', ms = m :: ms' /\ mstart m = q /\ mcaps m = c /\ mend m = q + (length (rst q) - length rest) /\ fmatches text_pattern source (mend m) ms'.
Proof.
  intros q ms rest c Hq F A. inversion F as [f Hn|f m ms' rest' H1 H2 H3 H4 H5 H6]; subst.
  - exfalso. specialize (Hn q (le_n _) Hq). rewrite match_at_pos in Hn. congruence.
  - assert (mstart m = q) as E.
    { destruct (Nat.lt_ge_cases q (mstart m)) as [Lt|Ge]; [|lia]. specialize (H3 q (le_n _) Lt). rewrite match_at_pos in H3. congruence. }
    rewrite match_at_pos, E in H4. assert (rest' = rest) as -> by congruence. exists m, ms'. split; [reflexivity|]. split; [exact E|]. split; [congruence|].
    split; [|exact H6]. now rewrite <- E.
Qed.
Lemma fmatches_later : forall f q ms, fmatches text_pattern source f ms -> f <= q -> (forall i, f <= i -> i < q -> at_pos i = None) -> fmatches text_pattern source q ms.
Proof.
  intros f q ms F Hq Hn. inversion F as [f' Hn'|f' m ms' rest' H1 H2 H3 H4 H5 H6]; subst.
  - apply fm_nil. intros i Hi. apply Hn'. lia.
  - destruct (Nat.lt_ge_cases (mstart m) q) as [Lt|Ge].
    + exfalso. specialize (Hn _ H1 Lt). rewrite match_at_pos in H4. congruence.
    + apply (fm_cons _ _ _ _ _ rest'); try assumption. intros i Hi. apply H3. lia.
Qed.

(** ** From the grammar to the scanner *)
(** What the scanner passes over. *)
Lemma pass_over : forall ms f q ln, fmatches text_pattern source f ms -> f <= q -> inside f q ->
  (forall i, f <= i -> i < q -> ~ begins (prv i) (rst i)) ->
  exists ms', fmatches text_pattern source q ms' /\ loop ms q ln = loop ms' q ln /\ length ms' <= length ms.
Proof.
  induction ms as [|m ms IH]; intros f q ln F Hf In Nb.
  - exists []. split; [|split; reflexivity]. inversion F as [f' Hn|]; subst. apply fm_nil. intros i Hi. apply Hn. lia.
  - inversion F as [|f' m' ms' rest H1 H2 H3 H4 H5 H6]; subst. destruct (Nat.lt_ge_cases (mstart m) q) as [Lt|Ge].
    + rewrite match_at_pos in H4. destruct (directive_case _ _ _ _ H4) as (g & t & E & D). rewrite E in H4.
      destruct (Nat.eq_dec g 6) as [->|Ng]; [|exfalso; eapply Nb; [exact H1|exact Lt|]; now apply (match_begins _ rest g t)].
      pose proof (In _ _ _ _ H1 Lt H4) as Le. rewrite <- H5 in Le.
      destruct (IH (mend m) q ln) as (ms' & F' & E' & Ln); [exact H6|lia| | |].
      * intros i rest' g' t' Hi1 Hi2. apply In; lia.
      * intros i Hi1 Hi2. apply Nb; lia.
      * exists ms'. split; [exact F'|]. split; [|cbn [length]; lia]. rewrite <- E', loop_cons. assert (Nat.ltb q (mstart m) = false) as -> by (apply Nat.ltb_ge; lia).
        unfold act, group. rewrite E. reflexivity.
    + exists (m :: ms). split; [|split; reflexivity]. apply (fm_cons _ _ _ _ _ rest); try assumption. intros i Hi. apply H3. lia.
Qed.
Lemma clear_region : forall p u v, p <= length source -> rst p = u ++ v -> only_text (prv p) u v ->
  forall i, p <= i -> i < p + length u -> ~ begins (prv i) (rst i).
Proof.
  intros p u v Hp E O i H1 H2. set (k := i - p). assert (Ek : u = firstn k u ++ skipn k u) by (symmetry; apply firstn_skipn).
  destruct (here p (firstn k u) (skipn k u ++ v) Hp) as (R & P & _); [rewrite E, Ek at 1; now rewrite <- app_assoc|].
  rewrite firstn_length in R, P. replace (p + Nat.min k (length u)) with i in * by lia. rewrite R, P. apply (O _ _ Ek).
  intros X. assert (length (skipn k u) = 0) by now rewrite X. rewrite skipn_length in *. lia.
Qed.
(** A text that ends at [j]. *)
Lemma text_done : forall ms f q j ln, fmatches text_pattern source f ms -> q <= f -> f <= j -> q < j -> j <= length source ->
  (forall i, f <= i -> i < j -> at_pos i = None) -> (j = length source \/ exists rest c, at_pos j = Some (rest, c)) ->
  loop ms q ln = TText (ln + count_nl (slice q j source)) (slice q j source) :: loop ms j (ln + count_nl (slice q j source)).
Proof.
  intros ms f q j ln F Hf Hj Lt Hl Hn He. destruct ms as [|m ms].
  - destruct He as [->|(rest & c & A)].
    + cbn [scan_loop]. rewrite Nat.eqb_refl. destruct (Nat.eqb_spec q (length source)); [lia|]. unfold text_tok. cbn [snd].
      destruct (split_at q (length source)) as [Eq _]; [lia|lia|]. rewrite skipn_all, app_nil_r in Eq. now rewrite <- Eq.
    + exfalso. inversion F as [f' Hn'|]; subst. specialize (Hn' j Hj Hl). rewrite match_at_pos in Hn'. congruence.
  - inversion F as [|f' m' ms' rest H1 H2 H3 H4 H5 H6]; subst. rewrite match_at_pos in H4.
    assert (Ge : j <= mstart m). { destruct (Nat.lt_ge_cases (mstart m) j) as [L1|]; [|lia]. specialize (Hn _ H1 L1). congruence. }
    assert (mstart m = j) as E.
    { destruct He as [->|(rest' & c & A)]; [lia|]. destruct (Nat.lt_ge_cases j (mstart m)) as [L1|]; [|lia]. specialize (H3 j Hj L1). rewrite match_at_pos in H3. congruence. }
    rewrite !loop_cons, E. assert (Nat.ltb q j = true) as -> by (apply Nat.ltb_lt; lia). rewrite Nat.ltb_irrefl. reflexivity.
Qed.
Lemma only_groups : forall ms f q ln, fmatches text_pattern source f ms -> length source < q ->
  (forall i, f <= i -> i <= length source -> ~ begins (prv i) (rst i)) -> loop ms q ln = [TText ln []].
Proof.
  induction ms as [|m ms IH]; intros f q ln F Hq Nb.
  - cbn [scan_loop]. destruct (Nat.eqb_spec q (length source)); [lia|].
    rewrite skipn_all2 by lia. unfold text_tok. cbn. now rewrite Nat.add_0_r.
  - inversion F as [|f' m' ms' rest H1 H2 H3 H4 H5 H6]; subst. rewrite match_at_pos in H4.
    destruct (directive_case _ _ _ _ H4) as (g & t & E & D). rewrite E in H4.
    destruct (Nat.eq_dec g 6) as [->|Ng]; [|exfalso; eapply Nb; [exact H1|exact H2|]; now apply (match_begins _ rest g t)].
    rewrite loop_cons. assert (Nat.ltb q (mstart m) = false) as -> by (apply Nat.ltb_ge; lia).
    assert (A : act m ms q ln = loop ms q ln) by (unfold act, group; rewrite E; reflexivity). rewrite A.
    apply (IH (mend m)); [exact H6|exact Hq|]. intros i Hi. apply Nb. lia.
Qed.
Lemma no_nl_count : forall b, ~ In c_nl b -> count_nl b = 0.
Proof.
  intros b. unfold count_nl. induction b as [|x b IH]; intros Nb; [reflexivity|]. cbn [count].
  destruct (N.eqb_spec x c_nl) as [->|]; [exfalso; apply Nb; now left|]. apply IH. intros ?. apply Nb. now right.
Qed.
Lemma find_nl : forall b v, ~ In c_nl b -> find [c_nl] (b ++ [c_nl] ++ v) = Some (length b).
Proof.
  intros b v Nb. destruct (find [c_nl] (b ++ [c_nl] ++ v)) as [j|] eqn:F.
  - destruct (find_Some _ _ _ F) as (b' & w & E & Lb). pose proof (find_first _ _ _ F b v eq_refl) as Le. subst j.
    destruct (Nat.eq_dec (length b') (length b)) as [->|Ne]; [reflexivity|]. exfalso. apply Nb.
    assert (X : (b' ++ [c_nl]) ++ w = b ++ [c_nl] ++ v) by now rewrite <- app_assoc.
    destruct (app_long _ _ _ _ X) as (w' & ->); [rewrite app_length; cbn; lia|]. rewrite !in_app_iff. left. right. now left.
  - exfalso. exact (find_None _ _ F b v eq_refl).
Qed.
Lemma find_no_nl : forall b, ~ In c_nl b -> find [c_nl] b = None.
Proof.
  intros b Nb. destruct (find [c_nl] b) as [j|] eqn:F; [|reflexivity]. destruct (find_Some _ _ _ F) as (b' & w & E & Lb). exfalso. apply Nb. rewrite E. rewrite !in_app_iff. right. left. now left.
Qed.
Lemma skip_blanks_eq : forall bl v pos, Forall blank bl -> v <> [] -> stops blank v -> skip_blanks pos (bl ++ v) = Ok (pos + length bl).
Proof.
  intros bl v pos F Ne St. revert pos. induction F as [|c bl Hc F IH]; intros pos; cbn [app length].
  - rewrite Nat.add_0_r. destruct v as [|c v]; [congruence|]. cbn [skip_blanks stops] in *. destruct (N.eqb_spec c c_sp) as [->|]; [exfalso; apply St; now left|].
    destruct (N.eqb_spec c c_tab) as [->|]; [exfalso; apply St; now right|]. reflexivity.
  - cbn [skip_blanks]. assert (N.eqb c c_sp || N.eqb c c_tab = true) as -> by (destruct Hc as [->| ->]; reflexivity). rewrite IH. f_equal. lia.
Qed.
Lemma get_tag_eq : forall name p ln body dash bl v, p <= length source -> Forall letter name -> rst p = body ++ dash ++ L "%}" ++ bl ++ v ->
  tag_close body dash bl v -> find (L "%}") (rst p) = Some (length (body ++ dash)) ->
  get_tag source name p ln = Ok (p + length (body ++ dash ++ L "%}" ++ bl), ln + count_nl body, TTag ln name body).
Proof.
  intros name p ln body dash bl v Hp Ln E Cl Fd. unfold get_tag, find_from. rewrite Fd. cbn [option_map].
  assert (E0 : rst p = (body ++ dash) ++ L "%}" ++ bl ++ v) by (now rewrite <- app_assoc). rewrite (slice_prefix _ _ _ E0).
  destruct (here p ((body ++ dash) ++ L "%}") (bl ++ v) Hp) as (R & _ & _); [rewrite E0; now rewrite <- !app_assoc|].
  rewrite app_length in R. cbn [length L] in R. rewrite Nat.add_assoc in R. rewrite R. unfold tag_tok.
  assert (C : forall b, count_nl (name ++ L " " ++ b) = count_nl b) by (intros b; rewrite !count_nl_app, (letters_no_nl name Ln); reflexivity).
  destruct Cl as [s Sf|bl s Fb Ne St].
  - rewrite app_nil_r, Sf, C. match goal with |- Ok (?a, _, _) = Ok (?b, _, _) => replace b with a by (rewrite !app_length; cbn [length L]; lia) end. reflexivity.
  - assert (suffixb (L "-") (body ++ L "-") = true) as -> by (apply suffixb_spec; now exists body).
    rewrite app_length. cbn [length L]. rewrite Nat.add_sub, firstn_app, Nat.sub_diag, firstn_all. cbn [firstn]. rewrite app_nil_r.
    change (length (L "-")) with 1. change (length (L "%}")) with 2. rewrite skip_blanks_eq by assumption. cbn [rmap rbind]. rewrite C. match goal with |- Ok (?a, _, _) = Ok (?b, _, _) => replace b with a by (rewrite !app_length; cbn [length L]; lia) end. reflexivity.
Qed.

Ltac move_on := match goal with |- context [Nat.leb ?q ?e] => let Mv := fresh in assert (Mv : Nat.leb q e = true) by (apply Nat.leb_le; lia); rewrite Mv; clear Mv end; cbv iota.
Theorem lex_scans : forall prev ln s ts, lex compile prev ln s ts -> forall q ms, prev = prv q -> s = rst q -> q <= length source ->
  fmatches text_pattern source q ms -> loop ms q ln = ts.
Proof.
  intros prev ln s ts X. induction X as [prev ln|prev ln t s ts Tt X IH|prev ln s ts X IH|prev ln c n s ts Hc Hn Hs X IH|prev ln e s l o ts C Ee Ot X IH
    |prev ln ws name body s ts Ls Sw Ne Ln Sb Nb Ot X IH|prev ln ws name body Ls Sw Ne Ln Sb Nb Ot
    |prev ln opening name body dash bl s ts Op Ne Ln Sb Cl Fd Ot X IH]; intros q ms Ep Es Hq F.
  - (* end *) assert (q = length source) as ->.
    { assert (X : length (rst q) = 0) by now rewrite <- Es. rewrite skipn_length in X. lia. }
    destruct ms as [|m ms]; [cbn; now rewrite Nat.eqb_refl|]. inversion F as [|f' m' ms' rest H1 H2 H3 H4 H5 H6]; subst.
    assert (mstart m = length source) as E by lia. rewrite match_at_pos, E in H4. unfold at_pos in H4. rewrite skipn_all in H4. discriminate.
  - (* text *) destruct Tt as [head t s Ne Hh Hn He]. symmetry in Es. destruct (here q (head ++ t) s Hq Es) as (R & P & Q). subst prev.
    assert (Es' : rst q = head ++ t ++ s) by (now rewrite <- app_assoc in Es).
    destruct (here q head (t ++ s) Hq Es') as (Rh & Ph & Qh).
    assert (Sl : slice q (q + length (head ++ t)) source = head ++ t) by (now apply (slice_prefix q (head ++ t) s)).
    assert (Hn' : forall i, q + length head <= i -> i < q + length (head ++ t) -> at_pos i = None).
    { intros i H1 H2. rewrite app_length in H2. set (k := i - (q + length head)).
      assert (Ek : t = firstn k t ++ skipn k t) by (symmetry; apply firstn_skipn).
      destruct (here q (head ++ firstn k t) (skipn k t ++ s) Hq) as (Ri & Pi & _); [rewrite Es', Ek at 1; now rewrite <- !app_assoc|].
      rewrite app_length, firstn_length in Ri, Pi. replace (q + (length head + Nat.min k (length t))) with i in * by lia.
      destruct (Hn _ _ Ek) as [N1 N2]; [intros X0; assert (length (skipn k t) = 0) by (now rewrite X0); rewrite skipn_length in *; lia|].
      apply no_match; rewrite Ri, Pi; assumption. }
    assert (He' : q + length (head ++ t) = length source \/ exists rest c, at_pos (q + length (head ++ t)) = Some (rest, c)).
    { unfold at_pos. rewrite R, P. destruct He as [->|[B|(h & v & E & S)]].
      - left. assert (X0 : length (rst (q + length (head ++ t))) = 0) by now rewrite R. rewrite skipn_length in X0. lia.
      - right. apply begins_directive in B as (rest & g & t' & D & _). eauto.
      - right. rewrite E. apply stray_match in S. eauto. }
    assert (Pos : q < q + length (head ++ t)) by (destruct (head ++ t) as [|x l0]; [congruence|cbn [length]; lia]).
    assert (Fin : exists ms1, loop ms q ln = loop ms1 q ln /\ fmatches text_pattern source (q + length head) ms1).
    { destruct Hh as [->|S]; [exists ms; split; [reflexivity|cbn [length]; now rewrite Nat.add_0_r]|].
      assert (A : at_pos q = Some (t ++ s, [(6, [])])) by (unfold at_pos; rewrite Es'; now apply stray_match).
      destruct (first_match q ms _ _ Hq F A) as (m & ms' & -> & E1 & E2 & E3 & F').
      exists ms'. split.
      - rewrite loop_cons, E1, Nat.ltb_irrefl. unfold act, group. rewrite E2. reflexivity.
      - rewrite E3, Es', app_length in F'. now replace (q + (length head + length (t ++ s) - length (t ++ s))) with (q + length head) in F' by lia. }
    destruct Fin as (ms1 & -> & F1). assert (Le1 : q <= q + length head) by lia. assert (Le2 : q + length head <= q + length (head ++ t)) by (rewrite app_length; lia).
    rewrite (text_done ms1 _ q _ ln F1 Le1 Le2 Pos Q Hn' He'). rewrite Sl. f_equal.
    apply IH; [now symmetry|now symmetry|exact Q|]. apply (fmatches_later (q + length head)); [exact F1|rewrite app_length; lia|exact Hn'].
  - (* $$ *) symmetry in Es. destruct (here q (L "$$") s Hq Es) as (R & P & Q).
    assert (A : at_pos q = Some (s, [(1, L "$")])) by (unfold at_pos; rewrite Es; reflexivity).
    destruct (first_match q ms _ _ Hq F A) as (m & ms' & -> & E1 & E2 & E3 & F'). rewrite Es, app_length in E3.
    replace (q + (length (L "$$") + length s - length s)) with (q + length (L "$$")) in E3 by lia.
    rewrite loop_cons, E1, Nat.ltb_irrefl. unfold act, group. rewrite E2. cbn [List.find fst Nat.eqb option_map snd].
    move_on. unfold text_tok. change (count_nl (L "$")) with 0. rewrite Nat.add_0_r. f_equal. rewrite E3 in *.
    apply IH; [now rewrite P|now symmetry|exact Q|exact F'].
  - (* $name *) symmetry in Es. assert (Es' : rst q = (L "$" ++ c :: n) ++ s) by (now rewrite <- app_assoc). destruct (here q _ s Hq Es') as (R & P & Q).
    assert (A : at_pos q = Some (s, [(2, c :: n)])) by (unfold at_pos; rewrite Es; now apply dir_name).
    destruct (first_match q ms _ _ Hq F A) as (m & ms' & -> & E1 & E2 & E3 & F'). rewrite Es', app_length in E3.
    match type of E3 with _ = q + (?a + ?b - ?b) => replace (q + (a + b - b)) with (q + a) in E3 by lia end.
    rewrite loop_cons, E1, Nat.ltb_irrefl. unfold act, group. rewrite E2. cbn [List.find fst Nat.eqb option_map snd].
    move_on. unfold expr_tok.
    assert (Cn : count_nl (c :: n) = 0) by (apply names_no_nl; constructor; [unfold name_rest; now rewrite Hc|exact Hn]).
    rewrite Cn, Nat.add_0_r. f_equal. rewrite E3 in *. apply IH; [now rewrite P|now symmetry|exact Q|exact F'].
  - (* ${ *) symmetry in Es. destruct (here q (L "${") (e ++ L "}" ++ s) Hq Es) as (R & P & Q).
    assert (A : at_pos q = Some (e ++ L "}" ++ s, [(3, [])])) by (unfold at_pos; rewrite Es; reflexivity).
    destruct (first_match q ms _ _ Hq F A) as (m & ms' & -> & E1 & E2 & E3 & F'). rewrite Es, app_length in E3.
    match type of E3 with _ = q + (?a + ?b - ?b) => replace (q + (a + b - b)) with (q + a) in E3 by lia end.
    rewrite loop_cons, E1, Nat.ltb_irrefl. unfold act, group. rewrite E2. cbn [List.find fst Nat.eqb option_map snd].
    move_on. rewrite E3 in *. unfold get_braced_expr. rewrite R, C, Ee. unfold expr_tok.
    set (p := q + length (L "${")) in *. replace (p + (length e + 1) - 1) with (p + length e) by lia. rewrite (slice_prefix _ _ _ R). f_equal.
    assert (R0 : rst p = (e ++ L "}") ++ s) by (now rewrite <- app_assoc). destruct (here p _ _ Q R0) as (R' & P' & Q').
    assert (El : length (e ++ L "}") = length e + 1) by (rewrite app_length; reflexivity). rewrite El in *.
    assert (Nb : forall i, p <= i -> i < p + (length e + 1) -> ~ begins (prv i) (rst i)).
    { rewrite <- El. apply (clear_region p (e ++ L "}") s Q R0). rewrite P. exact Ot. }
    destruct (pass_over ms' p (p + (length e + 1)) (ln + count_nl e) F') as (ms2 & F2 & -> & _); [lia| |exact Nb|].
    { rewrite Nat.add_assoc. now apply (inside_braced p e s). }
    apply IH; [rewrite P', last_of_app; reflexivity|now symmetry|exact Q'|exact F2].
  - (* a line *) symmetry in Es. assert (Es' : rst q = (ws ++ L "%" ++ name) ++ body ++ [c_nl] ++ s) by (rewrite Es; now rewrite <- !app_assoc).
    destruct (here q _ _ Hq Es') as (R & P & Q). subst prev.
    assert (A : at_pos q = Some (body ++ [c_nl] ++ s, [(5, name)])).
    { unfold at_pos. rewrite Es. apply dir_bare; auto. destruct body; [cbn; discriminate|exact Sb]. }
    destruct (first_match q ms _ _ Hq F A) as (m & ms' & -> & E1 & E2 & E3 & F'). rewrite Es', app_length in E3.
    match type of E3 with _ = q + (?a + ?b - ?b) => replace (q + (a + b - b)) with (q + a) in E3 by lia end.
    rewrite loop_cons, E1, Nat.ltb_irrefl. unfold act, group. rewrite E2. cbn [List.find fst Nat.eqb option_map snd].
    move_on. rewrite E3 in *. set (p := q + length (ws ++ L "%" ++ name)) in *.
    unfold get_tag_bare, find_from, tag_tok. rewrite R, (find_nl _ _ Nb). cbn [option_map]. rewrite (slice_prefix _ _ _ R).
    assert (Cn : count_nl (name ++ L " " ++ body) = 0) by (rewrite !count_nl_app, (letters_no_nl name Ln), (no_nl_count body Nb); reflexivity).
    rewrite Cn, Nat.add_0_r. f_equal.
    assert (Pn : prv p = last_of None name). { rewrite P, !last_of_app. destruct name as [|x name]; [congruence|reflexivity]. }
    assert (R0 : rst p = (body ++ [c_nl]) ++ s) by (now rewrite <- app_assoc). destruct (here p _ _ Q R0) as (R' & P' & Q').
    assert (El : length (body ++ [c_nl]) = length body + 1) by (rewrite app_length; reflexivity). rewrite El in *.
    assert (Np : ~ line_start (prv p)) by (rewrite Pn; now apply letters_not_start).
    assert (Nbg : forall i, p <= i -> i < p + (length body + 1) -> ~ begins (prv i) (rst i)).
    { intros i H1 H2. destruct (Nat.eq_dec i (p + length body)) as [->|Ni].
      - destruct (here p _ _ Q R) as (R1 & P1 & _). rewrite R1, P1. intros [(v & E)|[(v & E)|(Ls' & _)]]; [discriminate|discriminate|].
        revert Ls'. now apply last_not_start.
      - rewrite <- Pn in Ot. apply (clear_region p body ([c_nl] ++ s) Q R Ot); lia. }
    rewrite <- Nat.add_assoc.
    destruct (pass_over ms' p (p + (length body + 1)) (ln + 1) F') as (ms2 & F2 & -> & _); [lia| |exact Nbg|].
    { rewrite Nat.add_assoc. now apply (inside_line p body s). }
    apply IH; [rewrite P', last_of_app; reflexivity|now symmetry|exact Q'|exact F2].
  - (* the last line *) symmetry in Es. assert (Es' : rst q = (ws ++ L "%" ++ name) ++ body) by (rewrite Es; now rewrite <- !app_assoc).
    destruct (here q _ _ Hq Es') as (R & P & Q). subst prev.
    assert (A : at_pos q = Some (body, [(5, name)])) by (unfold at_pos; rewrite Es; now apply dir_bare).
    destruct (first_match q ms _ _ Hq F A) as (m & ms' & -> & E1 & E2 & E3 & F'). rewrite Es', app_length in E3.
    match type of E3 with _ = q + (?a + ?b - ?b) => replace (q + (a + b - b)) with (q + a) in E3 by lia end.
    rewrite loop_cons, E1, Nat.ltb_irrefl. unfold act, group. rewrite E2. cbn [List.find fst Nat.eqb option_map snd].
    move_on. rewrite E3 in *. set (p := q + length (ws ++ L "%" ++ name)) in *.
    unfold get_tag_bare, find_from, tag_tok. rewrite R, (find_no_nl _ Nb). cbn [option_map].
    assert (Lv : length source = p + length body). { rewrite <- R, skipn_length. lia. }
    assert (Sl : slice p (length source) source = body). { rewrite Lv. apply (slice_prefix _ _ []). now rewrite app_nil_r. }
    rewrite Sl. assert (Cn : count_nl (name ++ L " " ++ body) = 0) by (rewrite !count_nl_app, (letters_no_nl name Ln), (no_nl_count body Nb); reflexivity).
    rewrite Cn, Nat.add_0_r. f_equal.
    assert (Pn : prv p = last_of None name). { rewrite P, !last_of_app. destruct name as [|x name]; [congruence|reflexivity]. }
    apply (only_groups ms' p); [exact F'|lia|]. intros i H1 H2. destruct (Nat.eq_dec i (length source)) as [->|Ni].
    + rewrite skipn_all. intros [(v & E)|[(v & E)|(_ & ws' & c & v & _ & _ & [E|E])]]; try discriminate; destruct ws'; discriminate.
    + rewrite <- Pn in Ot. apply (clear_region p body [] Q); [now rewrite app_nil_r|exact Ot|lia|lia].
  - (* a tag *) symmetry in Es. assert (Es' : rst q = (opening ++ name) ++ body ++ dash ++ L "%}" ++ bl ++ s) by (rewrite Es; now rewrite <- !app_assoc).
    destruct (here q _ _ Hq Es') as (R & P & Q). subst prev.
    assert (Sb' : stops letter (body ++ dash ++ L "%}" ++ bl ++ s)).
    { destruct body; [|exact Sb]. destruct Cl; cbn; discriminate. }
    assert (A : exists g, (g = 7 \/ g = 8) /\ at_pos q = Some (body ++ dash ++ L "%}" ++ bl ++ s, [(g, name)])).
    { unfold at_pos. rewrite Es. destruct Op as [->|(Ls & ws & Sw & ->)].
      - exists 8. split; [now right|]. now apply dir_brace.
      - exists 7. split; [now left|]. rewrite <- app_assoc. now apply dir_ljust. }
    destruct A as (g & Hg & A).
    destruct (first_match q ms _ _ Hq F A) as (m & ms' & -> & E1 & E2 & E3 & F'). rewrite Es', app_length in E3.
    match type of E3 with _ = q + (?a + ?b - ?b) => replace (q + (a + b - b)) with (q + a) in E3 by lia end.
    set (p := q + length (opening ++ name)) in *.
    assert (Fb : Forall blank bl) by (destruct Cl; [constructor|assumption]).
    assert (Fd' : find (L "%}") (rst p) = Some (length (body ++ dash))) by (now rewrite R).
    assert (Go : loop (m :: ms') q ln = TTag ln name body :: loop ms' (p + length (body ++ dash ++ L "%}" ++ bl)) (ln + count_nl body)).
    { rewrite loop_cons, E1, Nat.ltb_irrefl. unfold act, group. rewrite E2.
      destruct Hg as [->| ->]; cbn [List.find fst Nat.eqb option_map snd]; move_on; rewrite E3;
        rewrite (get_tag_eq name p ln body dash bl s) by assumption; reflexivity. }
    rewrite Go. f_equal. rewrite E3 in F'.
    assert (Pn : prv p = last_of None name). { rewrite P, last_of_app. destruct name as [|x name]; [congruence|reflexivity]. }
    assert (R0 : rst p = (body ++ dash ++ L "%}" ++ bl) ++ s) by (rewrite R; now rewrite <- !app_assoc). destruct (here p _ _ Q R0) as (R' & P' & Q').
    assert (El : length (body ++ dash ++ L "%}" ++ bl) = length (body ++ dash ++ L "%") + 1 + length bl) by (rewrite !app_length; cbn [length L]; lia).
    assert (R1 : rst p = (body ++ dash ++ L "%}") ++ bl ++ s) by (rewrite R; now rewrite <- !app_assoc).
    destruct (here p _ _ Q R1) as (R2 & P2 & Q2).
    assert (Nbg : forall i, p <= i -> i < p + length (body ++ dash ++ L "%}" ++ bl) -> ~ begins (prv i) (rst i)).
    { intros i H1 H2. destruct (Nat.lt_ge_cases i (p + length (body ++ dash ++ L "%}"))) as [Lt|Ge].
      - rewrite <- Pn in Ot. apply (clear_region p (body ++ dash ++ L "%}") (bl ++ s) Q R1 Ot); lia.
      - set (k := i - (p + length (body ++ dash ++ L "%}"))). assert (Ek : bl = firstn k bl ++ skipn k bl) by (symmetry; apply firstn_skipn).
        destruct (here (p + length (body ++ dash ++ L "%}")) (firstn k bl) (skipn k bl ++ s) Q2) as (R3 & P3 & _); [rewrite R2; rewrite Ek at 1; now rewrite <- app_assoc|].
        assert (Hk : k < length bl) by (unfold k; rewrite !app_length in *; lia).
        rewrite firstn_length in R3, P3. replace (p + length (body ++ dash ++ L "%}") + Nat.min k (length bl)) with i in * by lia.
        assert (Fk : Forall blank (firstn k bl) /\ Forall blank (skipn k bl)) by (apply Forall_app; now rewrite <- Ek). destruct Fk as [F1 F2].
        assert (Lk : length (skipn k bl) <> 0) by (rewrite skipn_length; lia). destruct (skipn k bl) as [|x w]; [now destruct Lk|]. apply Forall_cons_iff in F2 as [Bx _].
        intros B. apply begins_directive in B as (rest & g' & t' & D & _). destruct (directive_case _ _ _ _ D) as (g2 & t2 & _ & Dc).
        rewrite R3 in Dc. cbn [app] in Dc. apply case_blank in Dc; [|exact Bx]. rewrite P3 in Dc. revert Dc. apply last_not_start.
        + rewrite P2, !last_of_app. cbn. intros [|]; discriminate.
        + intros I1. rewrite Forall_forall in F1. apply F1 in I1. destruct I1; discriminate. }
    destruct (pass_over ms' p (p + length (body ++ dash ++ L "%}" ++ bl)) (ln + count_nl body) F') as (ms2 & F2 & -> & _); [lia| |exact Nbg|].
    { rewrite El. replace (p + (length (body ++ dash ++ L "%") + 1 + length bl)) with (p + length (body ++ dash ++ L "%") + 1 + length bl) by lia.
      apply (inside_tag p (body ++ dash ++ L "%") bl s); [exact Q|rewrite R; now rewrite <- !app_assoc|exact Fb]. }
    apply IH; [rewrite P', !last_of_app; reflexivity|now symmetry|exact Q'|exact F2].
Qed.

(** ** From the scanner to the grammar *)
Lemma passed_over : forall ms f q ln, fmatches text_pattern source f ms -> inside f q -> Forall tok_ok (loop ms q ln) ->
  forall i, f <= i -> i < q -> i <= length source -> ~ begins (prv i) (rst i).
Proof.
  induction ms as [|m ms IH]; intros f q ln F In O i H1 H2 Hi.
  - inversion F as [f' Hn|]; subst. apply (match_no i). rewrite <- match_at_pos. now apply Hn.
  - inversion F as [|f' m' ms' rest K1 K2 K3 K4 K5 K6]; subst. rewrite match_at_pos in K4.
    destruct (Nat.lt_ge_cases i (mstart m)) as [Lt|Ge]; [apply (match_no i); rewrite <- match_at_pos; now apply K3|].
    destruct (directive_case _ _ _ _ K4) as (g & t & E & D). rewrite E in K4.
    pose proof (In _ _ _ _ K1 ltac:(lia) K4) as Le. rewrite <- K5 in Le.
    rewrite loop_cons in O. assert (Lq : Nat.ltb q (mstart m) = false) by (apply Nat.ltb_ge; lia). rewrite Lq in O.
    destruct (Nat.eq_dec g 6) as [->|Ng].
    + assert (A : act m ms q ln = loop ms q ln) by (unfold act, group; rewrite E; reflexivity). rewrite A in O.
      destruct (Nat.lt_ge_cases i (mend m)) as [Lm|Gm].
      * apply (stray_nothing (mstart m) rest t); [exact K2|exact K4|exact Ge|]. now rewrite <- K5.
      * apply (IH (mend m) q ln); try assumption. intros i' rest' g' t' Hi1 Hi2. apply In; lia.
    + exfalso. rewrite (act_back m ms q ln g t E Ng Le) in O. apply Forall_inv in O. exact O.
Qed.
Lemma region_clear : forall p u v, p <= length source -> rst p = u ++ v ->
  (forall i, p <= i -> i < p + length u -> ~ begins (prv i) (rst i)) -> only_text (prv p) u v.
Proof.
  intros p u v Hp E K t1 t2 Et Ne. destruct (here p t1 (t2 ++ v) Hp) as (R & P & _); [now rewrite E, Et, <- app_assoc|].
  rewrite <- R, <- P. apply K; [lia|]. rewrite Et, app_length. destruct t2; [congruence|cbn [length]; lia].
Qed.

(** Python stops reading an expression of this source at a closing brace. *)
Hypothesis at_brace : forall u s l o, source = u ++ L "${" ++ s -> compile s = CErr l o ->
  exists e v, s = e ++ L "}" ++ v /\ expr_end s l o = length e + 1.

Definition lexes (ms : list mobj) : Prop := forall q ln, fmatches text_pattern source q ms -> q <= length source ->
  Forall tok_ok (loop ms q ln) -> lex compile (prv q) ln (rst q) (loop ms q ln).

(** A text from [q] to [j]; what was found before [f] is a stray percent sign. *)
Lemma lex_text : forall ms f q j ln, fmatches text_pattern source f ms -> q <= f -> f <= j -> q < j -> j <= length source ->
  (q = f \/ exists t, at_pos q = Some (rst f, [(6, t)])) ->
  (forall i, f <= i -> i < j -> at_pos i = None) -> (j = length source \/ exists rest c, at_pos j = Some (rest, c)) ->
  lex compile (prv j) (ln + count_nl (slice q j source)) (rst j) (loop ms j (ln + count_nl (slice q j source))) ->
  lex compile (prv q) ln (rst q) (loop ms q ln).
Proof.
  intros ms f q j ln F Hf Hj Lt Hl Hs Hn He X. rewrite (text_done ms f q j ln F Hf Hj Lt Hl Hn He).
  destruct (split_at q j) as [Eq Lq]; [lia|exact Hl|].
  destruct (here q _ _ ltac:(lia) Eq) as (_ & P & _). rewrite Lq in P. replace (q + (j - q)) with j in P by lia.
  rewrite Eq. apply l_text; [|now rewrite <- P].
  destruct (split_at q f) as [Ef Lf]; [lia|lia|]. destruct (split_at f j) as [Ej Lj]; [lia|lia|].
  destruct (here q _ _ ltac:(lia) Ef) as (_ & Pf & _). rewrite Lf in Pf. replace (q + (f - q)) with f in Pf by lia.
  assert (Es : slice q j source = slice q f source ++ slice f j source).
  { apply (app_inv_tail (rst j)). now rewrite <- app_assoc, <- Ej, <- Ef, <- Eq. }
  rewrite Es. apply text_piece.
  - intros E0. rewrite <- Es in E0. rewrite E0 in Lq. cbn in Lq. lia.
  - destruct Hs as [->|(t & A)]; [left; unfold slice; now rewrite Nat.sub_diag|right].
    rewrite <- Ej. apply match_stray in A as (head & E & S). assert (head = slice q f source) as <- by (apply (app_inv_tail (rst f)); congruence). exact S.
  - intros t1 t2 E Ne. destruct (here f t1 (t2 ++ rst j)) as (R1 & P1 & _); [lia|rewrite Ej, E; now rewrite <- app_assoc|].
    rewrite last_of_app, <- Pf, <- R1, <- P1. apply match_no. apply Hn; [lia|].
    rewrite E, app_length in Lj. destruct t2 as [|x t2]; [congruence|]. cbn [length] in Lj. lia.
  - rewrite <- Es, <- P. destruct He as [->|(rest & c & A)]; [left; apply skipn_all|right].
    destruct (directive_case _ _ _ _ A) as (g & t & -> & D). destruct (Nat.eq_dec g 6) as [->|Ng].
    + right. apply match_stray in A as (head & E & S). now exists head, rest.
    + left. now apply (match_begins j rest g t).
Qed.

Lemma lex_at : forall m ms, (forall ms', length ms' <= length ms -> lexes ms') -> forall ln, fmatches text_pattern source (mstart m) (m :: ms) ->
  Forall tok_ok (loop (m :: ms) (mstart m) ln) -> lex compile (prv (mstart m)) ln (rst (mstart m)) (loop (m :: ms) (mstart m) ln).
Proof.
  intros m ms IH ln F O. inversion F as [|f' m' ms' rest K1 K2 K3 K4 K5 K6]; subst. rewrite match_at_pos in K4.
  destruct (directive_case _ _ _ _ K4) as (g & t & E & D).
  destruct (case_text _ _ _ _ _ D) as (u & Eu & _). set (q := mstart m) in *.
  assert (He : mend m = q + length u). { rewrite K5, Eu, app_length. lia. }
  destruct (here _ _ _ K2 Eu) as (R & P & Q). rewrite <- He in R, P, Q.
  assert (Next : forall q' ln', inside (mend m) q' -> mend m <= q' -> q' <= length source -> Forall tok_ok (loop ms q' ln') ->
    (forall i, mend m <= i -> i < q' -> ~ begins (prv i) (rst i)) /\ lex compile (prv q') ln' (rst q') (loop ms q' ln')).
  { intros q' ln' In Hq1 Hq2 O'. assert (Nb : forall i, mend m <= i -> i < q' -> ~ begins (prv i) (rst i)).
    { intros i H1 H2. apply (passed_over ms (mend m) q' ln'); try assumption. lia. }
    split; [exact Nb|]. destruct (pass_over ms (mend m) q' ln' K6 Hq1 In Nb) as (ms2 & F2 & E2 & L2). rewrite E2 in *. now apply IH. }
  assert (Same : inside (mend m) (mend m)) by (intros i ? ? ? ? ?; lia).
  assert (Loop : loop (m :: ms) q ln = act m ms q ln) by (rewrite loop_cons; fold q; now rewrite Nat.ltb_irrefl).
  destruct (Nat.eq_dec g 6) as [->|Ng].
  { (* a stray percent sign *)
    assert (A : loop (m :: ms) q ln = loop ms q ln) by (rewrite Loop; unfold act, group; rewrite E; reflexivity). rewrite A in *. clear Loop A Next Same.
    assert (Hs : q = mend m \/ exists t, at_pos q = Some (rst (mend m), [(6, t)])) by (right; exists t; rewrite R; now rewrite E in K4).
    assert (Lu : q < mend m).
    { rewrite E in K4. apply match_stray in K4 as (head & Eh & _ & _ & ws & _ & ->). rewrite K5, Eh, !app_length. cbn [length L]. lia. }
    destruct ms as [|m2 ms2].
    - apply (lex_text [] (mend m) q (length source)); try assumption; try lia.
      + intros i H1 H2. inversion K6 as [f' Hn|]; subst. rewrite <- match_at_pos. apply Hn; lia.
      + cbn [scan_loop]. rewrite Nat.eqb_refl, skipn_all. apply l_end.
    - inversion K6 as [|f' m' ms' rest2 J1 J2 J3 J4 J5 J6]; subst. rewrite match_at_pos in J4.
      assert (F2 : fmatches text_pattern source (mstart m2) (m2 :: ms2)) by (apply (fm_cons _ _ _ _ _ rest2); try assumption; [lia|intros; lia|now rewrite match_at_pos]).
      assert (Hn : forall i, mend m <= i -> i < mstart m2 -> at_pos i = None) by (intros i H1 H2; rewrite <- match_at_pos; now apply J3).
      assert (He2 : mstart m2 = length source \/ exists rest c, at_pos (mstart m2) = Some (rest, c)) by (right; eauto).
      apply (lex_text (m2 :: ms2) (mend m) q (mstart m2)); try assumption; try lia.
      apply IH; [reflexivity|exact F2|exact J2|].
      rewrite (text_done _ (mend m) q (mstart m2) ln K6) in O by (assumption || lia). now apply Forall_inv_tail in O. }
  assert (Tag : forall opening name v, opening = L "{%" \/ (line_start (prv q) /\ exists ws, Forall space ws /\ opening = ws ++ L "{%-") ->
    name <> [] -> Forall letter name -> stops letter v -> u = opening ++ name -> rest = v ->
    Forall tok_ok (match get_tag source name (mend m) ln with Ok (p', ln', t0) => t0 :: loop ms p' ln' | Raise e => [TRaise e] end) ->
    lex compile (prv q) ln (opening ++ name ++ v) (match get_tag source name (mend m) ln with Ok (p', ln', t0) => t0 :: loop ms p' ln' | Raise e => [TRaise e] end)).
  { clear D E. intros opening name v Op Ne Ln Sv Eo -> O'. destruct (get_tag source name (mend m) ln) as [[[p' ln'] tk]|] eqn:G; [|apply Forall_inv in O'; destruct O'].
    apply tag_read in G as (body & dash & bl & w & E1 & Cl & Fb & Fd & -> & -> & ->); try assumption.
    assert (R1 := E1). rewrite R in E1, Fd. clear R. subst v. apply Forall_inv_tail in O'.
    assert (Pn : prv (mend m) = last_of None name) by (rewrite P, Eo, last_of_app; destruct name; [congruence|reflexivity]).
    assert (R0 : rst (mend m) = (body ++ dash ++ L "%}" ++ bl) ++ w) by (rewrite R1; now rewrite <- !app_assoc). destruct (here _ _ _ Q R0) as (R' & P' & Q').
    assert (In : inside (mend m) (mend m + length (body ++ dash ++ L "%}" ++ bl))).
    { replace (mend m + length (body ++ dash ++ L "%}" ++ bl)) with (mend m + length (body ++ dash ++ L "%") + 1 + length bl)
        by (rewrite !app_length; cbn [length L]; lia).
      apply (inside_tag (mend m) (body ++ dash ++ L "%") bl w); try assumption. rewrite R1. now rewrite <- !app_assoc. }
    destruct (Next _ _ In ltac:(lia) Q' O') as [Nb X]. apply l_tag; try assumption.
    - destruct body; [exact Logic.I|exact Sv].
    - rewrite <- Pn. apply (region_clear (mend m) (body ++ dash ++ L "%}") (bl ++ w) Q); [rewrite R1; now rewrite <- !app_assoc|].
      intros i H1 H2. apply Nb; [exact H1|]. rewrite !app_length in *. lia.
    - rewrite R', P', !last_of_app in X. exact X. }
  rewrite Loop in *. unfold act, group in *. rewrite E in *. assert (Mv : Nat.leb q (mend m) = true) by (apply Nat.leb_le; lia). rewrite Mv in *.
  remember (rst q) as sq eqn:Es.
  destruct D as [v|c n v Hc Hn Hv|v|v|ws t v B Sw Ne Lt' Sv|ws v B Sw Sv|ws t v B Sw Ne Lt' Sv|t v Ne Lt' Sv|v];
    cbn [List.find fst Nat.eqb option_map snd] in *.
  - (* $$ *) unfold text_tok in *. change (count_nl (L "$")) with 0 in *. rewrite Nat.add_0_r in *.
    apply Forall_inv_tail in O. apply l_dollar. apply app_inv_tail in Eu. subst u.
    destruct (Next (mend m) ln Same (le_n _) Q O) as [_ X]. rewrite R, P in X. exact X.
  - (* $name *) unfold expr_tok in *.
    assert (C : count_nl (c :: n) = 0) by (apply names_no_nl; constructor; [unfold name_rest; now rewrite Hc|exact Hn]).
    rewrite C, Nat.add_0_r in *. apply Forall_inv_tail in O. apply l_name; try assumption.
    rewrite app_assoc in Eu. apply app_inv_tail in Eu. subst u.
    destruct (Next (mend m) ln Same (le_n _) Q O) as [_ X]. rewrite R, P in X. exact X.
  - (* ${ *) unfold get_braced_expr in *. rewrite R in *. destruct (compile v) as [|l o|] eqn:C.
    + apply Forall_inv in O. destruct O.
    + apply app_inv_tail in Eu. subst u.
      destruct (at_brace (firstn q source) v l o) as (e & v' & -> & Le); [rewrite Es; symmetry; apply firstn_skipn|exact C|]. rewrite Le in *. unfold expr_tok in *.
      replace (mend m + (length e + 1) - 1) with (mend m + length e) in * by lia.
      rewrite (slice_prefix _ _ _ R) in *. apply Forall_inv_tail in O.
      assert (R0 : rst (mend m) = (e ++ L "}") ++ v') by (now rewrite <- app_assoc). destruct (here _ _ _ Q R0) as (R' & P' & Q').
      assert (El : length (e ++ L "}") = length e + 1) by (rewrite app_length; reflexivity). rewrite El in *.
      destruct (Next (mend m + (length e + 1)) (ln + count_nl e)) as [Nb X]; [rewrite Nat.add_assoc; now apply (inside_braced (mend m) e v')|lia|exact Q'|exact O|].
      apply (l_braced compile _ _ e v' l o); try assumption.
      * rewrite <- El in Nb. pose proof (region_clear _ _ _ Q R0 Nb) as Ot. rewrite P in Ot. exact Ot.
      * rewrite R', P', last_of_app in X. exact X.
    + apply Forall_inv in O. destruct O.
  - apply Forall_inv in O. destruct O.
  - (* line tag *) unfold get_tag_bare, find_from, tag_tok in *. rewrite R in *.
    assert (Eu' : u = ws ++ L "%" ++ t) by (rewrite !app_assoc in Eu; apply app_inv_tail in Eu; now rewrite <- app_assoc in Eu).
    assert (Pn : prv (mend m) = last_of None t) by (rewrite P, Eu', !last_of_app; destruct t; [congruence|reflexivity]).
    assert (Np : ~ line_start (prv (mend m))) by (rewrite Pn; now apply letters_not_start).
    destruct (find [c_nl] v) as [j|] eqn:Fd; cbn [option_map] in *.
    + destruct (find_Some _ _ _ Fd) as (b & w & -> & Lb). subst j.
      rewrite (slice_prefix _ _ _ R) in *. apply Forall_inv_tail in O.
      assert (Nb : ~ In c_nl b).
      { intros I1. apply in_split in I1 as (b1 & b2 & ->). pose proof (find_first _ _ _ Fd b1 (b2 ++ [c_nl] ++ w)) as X.
        rewrite <- app_assoc in X. specialize (X eq_refl). rewrite app_length in X. cbn in X. lia. }
      assert (C : count_nl (t ++ L " " ++ b) = 0) by (rewrite !count_nl_app, (letters_no_nl t Lt'), (no_nl_count b Nb); reflexivity).
      rewrite C, Nat.add_0_r in *.
      assert (R0 : rst (mend m) = (b ++ [c_nl]) ++ w) by (now rewrite <- app_assoc). destruct (here _ _ _ Q R0) as (R' & P' & Q').
      assert (El : length (b ++ [c_nl]) = length b + 1) by (rewrite app_length; reflexivity). rewrite El in *. rewrite Nat.add_assoc in *.
      destruct (Next (mend m + length b + 1) (ln + 1)) as [Nbg X]; [now apply (inside_line (mend m) b w)|lia|exact Q'|exact O|].
      apply l_line; try assumption; [destruct b; [exact I|exact Sv]| |].
      * rewrite <- Pn. apply (region_clear _ _ _ Q R). intros i H1 H2. apply Nbg; lia.
      * rewrite R', P', last_of_app in X. exact X.
    + assert (Lv : length source = mend m + length v). { rewrite <- R, skipn_length. lia. }
      rewrite Lv in *. assert (Sl : slice (mend m) (mend m + length v) source = v).
      { apply (slice_prefix _ _ []). now rewrite app_nil_r. }
      rewrite Sl in *. apply Forall_inv_tail in O.
      assert (Nb : ~ In c_nl v).
      { intros I1. apply in_split in I1 as (b1 & b2 & ->). apply (find_None _ _ Fd b1 b2 eq_refl). }
      assert (C : count_nl (t ++ L " " ++ v) = 0) by (rewrite !count_nl_app, (letters_no_nl t Lt'), (no_nl_count v Nb); reflexivity).
      rewrite C, Nat.add_0_r in *.
      assert (In : inside (mend m) (mend m + length v + 1)).
      { intros i rest' g' t' H1 H2 A. assert (i + (length (rst i) - length rest') <= length source); [|lia]. rewrite skipn_length. lia. }
      pose proof (passed_over ms (mend m) _ _ K6 In O) as Nbg.
      rewrite (scan_over ms (mend m) (mend m + length v + 1) (ln + 1) K6) in * by (assumption || lia).
      apply l_last_line; try assumption. rewrite <- Pn. apply region_clear; [lia|now rewrite app_nil_r|]. intros i H1 H2. apply Nbg; lia.
  - congruence.
  - (* {%- *) rewrite (app_assoc ws). apply Tag; try assumption.
    + right. split; [assumption|]. now exists ws.
    + rewrite (app_assoc (L "{%-")), (app_assoc ws) in Eu. apply app_inv_tail in Eu. now rewrite <- Eu, <- app_assoc.
    + reflexivity.
  - (* {% *) apply Tag; try assumption; [now left| |reflexivity]. rewrite app_assoc in Eu. now apply app_inv_tail in Eu.
  - apply Forall_inv in O. destruct O.
Qed.

Lemma all_lexes : forall n ms, length ms <= n -> lexes ms.
Proof.
  induction n as [|n IH]; intros ms Hn q ln F Hq O.
  - destruct ms as [|m ms]; [|cbn in Hn; lia]. cbn [scan_loop] in *.
    destruct (Nat.eq_dec q (length source)) as [->|Ne].
    + rewrite skipn_all. cbn [scan_loop]. rewrite Nat.eqb_refl. apply l_end.
    + apply (lex_text [] q q (length source)); try assumption; try lia.
      * intros i H1 H2. inversion F as [f' Hx|]; subst. rewrite <- match_at_pos. apply Hx; lia.
      * cbn [scan_loop]. rewrite Nat.eqb_refl, skipn_all. apply l_end.
  - destruct ms as [|m ms]; [apply (IH []); try assumption; cbn; lia|]. cbn [length] in Hn.
    assert (IH' : forall ms', length ms' <= length ms -> lexes ms') by (intros ms' H; apply IH; lia).
    inversion F as [|f' m' ms' rest K1 K2 K3 K4 K5 K6]; subst.
    assert (F2 : fmatches text_pattern source (mstart m) (m :: ms)) by (apply (fm_cons _ _ _ _ _ rest); try assumption; [lia|intros; lia]).
    rewrite match_at_pos in K4. destruct (Nat.eq_dec q (mstart m)) as [->|Ne]; [now apply lex_at|].
    assert (Hx : forall i, q <= i -> i < mstart m -> at_pos i = None) by (intros i H1 H2; rewrite <- match_at_pos; now apply K3).
    assert (He : mstart m = length source \/ exists rest c, at_pos (mstart m) = Some (rest, c)) by (right; eauto).
    apply (lex_text (m :: ms) q q (mstart m)); try assumption; try lia.
    apply lex_at; try assumption.
    rewrite (text_done _ q q (mstart m) ln F) in O by (assumption || lia). now apply Forall_inv_tail in O.
Qed.
End Scanner.

(** The tokens of a text that means something are exactly those of the scanner. *)
Lemma lex_scan : forall compile source ts, lex compile None 1 source ts -> scan compile source = ts.
Proof.
  intros compile source ts H. unfold scan. apply (lex_scans compile source None 1 source ts H 0); try reflexivity; [lia|].
  apply finditer_spec, text_never_empty.
Qed.
Lemma scan_lex : forall compile source,
  (forall u s l o, source = u ++ L "${" ++ s -> compile s = CErr l o -> exists e v, s = e ++ L "}" ++ v /\ expr_end s l o = length e + 1) ->
  Forall tok_ok (scan compile source) -> lex compile None 1 source (scan compile source).
Proof.
  intros compile source AB O. unfold scan in *.
  apply (all_lexes compile source AB _ _ (le_n _) 0); [apply finditer_spec, text_never_empty|lia|exact O].
Qed.
Lemma lex_ok : forall compile prev ln s ts, lex compile prev ln s ts -> Forall tok_ok ts.
Proof. intros compile prev ln s ts H. induction H; repeat constructor; assumption. Qed.
Lemma text_to_only : forall prev t s, text_to prev t s -> t <> [] /\ only_text prev t s.
Proof.
  intros prev t s [head t' s' Ne Hd Cl _]. split; [exact Ne|]. intros t1 t2 E N2. destruct Hd as [->|(B & Sv & ws & Sw & ->)].
  - now apply (Cl t1 t2).
  - destruct (app_eq_app _ _ _ _ E) as (x & [[E1 E2]|[E1 E2]]).
    + destruct x as [|c x]; [cbn in E2; rewrite app_nil_r in E1; subst t1 t2; rewrite <- (app_nil_r (ws ++ L "%")); now apply (Cl [] t')|].
      assert (X : exists ws2, ws = t1 ++ ws2 /\ c :: x = ws2 ++ L "%").
      { destruct (app_eq_app _ _ _ _ E1) as (y & [[F1 F2]|[F1 F2]]); [now exists y|].
        destruct y as [|d y]; [exists []; rewrite app_nil_r in F1; subst t1; now rewrite app_nil_r|].
        exfalso. destruct y; discriminate. }
      destruct X as (ws2 & -> & Ex). rewrite Ex in E2. subst t2. rewrite <- !app_assoc. apply bare_nothing; [|exact Sv].
      now apply Forall_app in Sw.
    + subst t1. now apply Cl.
Qed.
Lemma lex_grammar : forall compile prev ln s ts, lex compile prev ln s ts -> grammar compile prev ln s ts.
Proof.
  intros compile prev ln s ts H. induction H; try (econstructor; eassumption).
  destruct (text_to_only _ _ _ H) as [Ne Ot]. now constructor.
Qed.
