(** * Proofs about interpolation *)

From Coq Require Import Ascii String List Arith NArith ZArith Bool Lia.
From Verif Require Import PyStr PyStrLemmas Regex RegexLemmas M_IR M_Text S_Text P_Text P_Text2 P_Text3 M_XText S_XText.
Import ListNotations.
Open Scope list_scope.

(** ** The pattern *)

Definition interp (s : str) : option rest_caps :=
  match s with
  | d :: c :: v =>
      if N.eqb d c_dollar then
        if name_start c then Some (dropwhile name_rest v, [(1, c :: takewhile name_rest v)])
        else if N.eqb c c_lbrace then Some (v, [(2, [])])
        else if N.eqb c c_dollar then Some (v, [])
        else None
      else None
  | _ => None
  end.

Lemma match_interp : forall prev s, match_at interp_pattern prev s = interp s.
Proof.
  intros prev s. unfold match_at, interp_pattern, interp. destruct s as [|d [|c v]]; try reflexivity.
  - unfold chr. cbn [rmatch]. now destruct (N.eqb c_dollar d).
  - unfold chr. cbn [rmatch]. rewrite (N.eqb_sym c_dollar d). destruct (N.eqb d c_dollar); [|reflexivity].
    destruct (name_start c) eqn:E.
    + rewrite rep_greedy with (x := (dropwhile name_rest v, [(1, c :: takewhile name_rest v)])); [reflexivity|lia|].
      do 3 f_equal. f_equal. cbn [length]. assert (length (dropwhile name_rest v) <= length v).
      { rewrite <- (take_drop name_rest v) at 2. rewrite app_length. lia. }
      replace (S (length v) - length (dropwhile name_rest v)) with (S (length v - length (dropwhile name_rest v))) by lia.
      cbn [firstn]. now rewrite firstn_take.
    + rewrite (N.eqb_sym c_lbrace c). destruct (N.eqb c c_lbrace).
      * now rewrite Nat.sub_diag.
      * rewrite (N.eqb_sym c_dollar c). now destruct (N.eqb c c_dollar).
Qed.

Lemma interp_ref : forall s, interp s <> None <-> ref_start s.
Proof.
  intros s. unfold interp, ref_start. split.
  - destruct s as [|d [|c v]]; try (intros []; reflexivity). destruct (N.eqb_spec d c_dollar) as [->|]; [|intros []; reflexivity].
    intros H. exists c, v. split; [reflexivity|]. destruct (name_start c); [now left|].
    destruct (N.eqb_spec c c_lbrace) as [->|]; [auto|]. destruct (N.eqb_spec c c_dollar) as [->|]; auto.
  - intros (c & v & -> & H). rewrite N.eqb_refl. destruct H as [->|[-> | ->]]; discriminate.
Qed.
Lemma interp_none : forall s, ~ ref_start s -> interp s = None.
Proof. intros s H. destruct (interp s) eqn:E; [|reflexivity]. destruct H. apply interp_ref. congruence. Qed.
Lemma interp_dec : forall s, ref_start s \/ ~ ref_start s.
Proof.
  intros s. destruct (interp s) eqn:E; [left|right].
  - apply interp_ref. congruence.
  - intros H. apply interp_ref in H. congruence.
Qed.

(** ** The matches in a suffix of the source *)

Definition refs (pos : nat) (s : str) : list mobj := finditer_from interp_pattern pos None 0 s.

Lemma find_prev : forall s pos skip p p', finditer_from interp_pattern pos p skip s = finditer_from interp_pattern pos p' skip s.
Proof.
  intros [|x s] pos skip p p'; cbn [finditer_from]; rewrite !match_interp; [reflexivity|].
  destruct skip; reflexivity.
Qed.
Lemma find_skip : forall t s pos p, finditer_from interp_pattern pos p (length t) (t ++ s) = refs (pos + length t) s.
Proof.
  induction t as [|x t IH]; intros s pos p; cbn [length app].
  - rewrite Nat.add_0_r. apply find_prev.
  - cbn [finditer_from]. rewrite IH. f_equal. lia.
Qed.
Lemma refs_nil : forall pos, refs pos [] = [].
Proof. intros pos. unfold refs. cbn [finditer_from]. now rewrite match_interp. Qed.
Lemma refs_hit : forall pos u v c, u <> [] -> interp (u ++ v) = Some (v, c) ->
  refs pos (u ++ v) = MObj pos (pos + length u) c :: refs (pos + length u) v.
Proof.
  intros pos [|x u] v c Ne H; [congruence|]. unfold refs. cbn [app finditer_from]. rewrite match_interp.
  cbn [app] in H. rewrite H. cbn [length]. rewrite app_length.
  replace (S (length u + length v) - length v) with (S (length u)) by lia. f_equal.
  rewrite Nat.sub_succ, Nat.sub_0_r, find_skip. unfold refs. f_equal. lia.
Qed.
Lemma no_ref_tail : forall x t s, no_ref (x :: t) s -> no_ref t s.
Proof. intros x t s H t1 t2 E. apply (H (x :: t1) t2). now rewrite E. Qed.
Lemma refs_pass : forall t s pos, no_ref t s -> refs pos (t ++ s) = refs (pos + length t) s.
Proof.
  induction t as [|x t IH]; intros s pos H; cbn [app length]; [now rewrite Nat.add_0_r|].
  unfold refs at 1. cbn [finditer_from]. rewrite match_interp, interp_none.
  - rewrite (find_prev _ _ _ _ None). fold (refs (S pos) (t ++ s)). rewrite IH by now apply no_ref_tail in H. f_equal. lia.
  - apply (H [] (x :: t)); [reflexivity|discriminate].
Qed.

Lemma refs_dollar : forall pos s, refs pos (L "$$" ++ s) = MObj pos (pos + 2) [] :: refs (pos + 2) s.
Proof. intros pos s. apply (refs_hit pos (L "$$")); [discriminate|reflexivity]. Qed.
Lemma refs_brace : forall pos s, refs pos (L "${" ++ s) = MObj pos (pos + 2) [(2, [])] :: refs (pos + 2) s.
Proof. intros pos s. apply (refs_hit pos (L "${")); [discriminate|reflexivity]. Qed.
Lemma refs_name : forall pos c n s, name_start c = true -> starred name_rest n -> stops (fun c => name_rest c = true) s ->
  refs pos (L "$" ++ (c :: n) ++ s) = MObj pos (pos + S (S (length n))) [(1, c :: n)] :: refs (pos + S (S (length n))) s.
Proof.
  intros pos c n s Hc Hn Hs. apply (refs_hit pos (L "$" ++ c :: n)); [discriminate|]. cbn [app L].
  unfold interp. change (N.eqb (N_of_ascii "$") c_dollar) with true. cbn [app]. rewrite Hc. cbv iota.
  assert (T : takewhile name_rest (n ++ s) = n /\ dropwhile name_rest (n ++ s) = s).
  { clear Hc. induction Hn as [|x n Hx Hn IH]; cbn [app].
    - destruct s as [|y s]; [auto|]. cbn in Hs. cbn. destruct (name_rest y); [now destruct Hs|auto].
    - cbn [takewhile dropwhile]. rewrite Hx. destruct IH as [-> ->]. auto. }
  destruct T as [-> ->]. reflexivity.
Qed.

(** ** First reference *)

Lemma first_ref : forall s, (no_ref s [] ) \/ exists t v, s = t ++ v /\ no_ref t v /\ ref_start v.
Proof.
  induction s as [|x s IH].
  - left. intros t1 t2 E Ne. symmetry in E. apply app_eq_nil in E as [_ ->]. congruence.
  - destruct (interp_dec (x :: s)) as [R|R].
    + right. exists [], (x :: s). split; [reflexivity|]. split; [|exact R].
      intros t1 t2 E Ne. symmetry in E. apply app_eq_nil in E as [_ ->]. congruence.
    + destruct IH as [N0|(t & v & -> & N0 & R')].
      * left. intros [|y t1] t2 E Ne; cbn in E.
        -- subst. now rewrite app_nil_r.
        -- injection E as <- E. now apply (N0 t1).
      * right. exists (x :: t), v. split; [reflexivity|]. split; [|exact R'].
        intros [|y t1] t2 E Ne; cbn in E; [now subst|]. injection E as <- E. now apply (N0 t1).
Qed.

(** ** The loop *)

Section Loop.
Variable compile : str -> compiled.

(** The loop at a place of the source: [s] is what is left. *)
Definition run (pre s : str) (ln : nat) : result (list piece) :=
  pieces_loop compile (pre ++ s) (refs (length pre) s) (length pre) ln.

Lemma run_start : forall s ln, pieces compile s ln = run [] s ln.
Proof. reflexivity. Qed.

Lemma run_end : forall pre ln, run pre [] ln = Ok [].
Proof. intros pre ln. unfold run. rewrite refs_nil. cbn [pieces_loop]. now rewrite app_nil_r, Nat.eqb_refl. Qed.

Lemma slice_mid : forall (pre t s : str), slice (length pre) (length pre + length t) (pre ++ t ++ s) = t.
Proof.
  intros pre t s. unfold slice. rewrite skipn_pre. replace (length pre + length t - length pre) with (length t) by lia.
  now rewrite firstn_app, Nat.sub_diag, firstn_all, app_nil_r.
Qed.

Lemma ref_head : forall pos s, ref_start s -> exists m ms, refs pos s = m :: ms /\ mstart m = pos.
Proof.
  intros pos s R. apply interp_ref in R. unfold refs. destruct s as [|x s]; [now destruct R|].
  cbn [finditer_from]. rewrite match_interp. destruct (interp (x :: s)) as [[rest c]|]; [|congruence].
  eexists _, _. split; reflexivity.
Qed.

Lemma run_text : forall pre t s ln, t <> [] -> no_ref t s -> s = [] \/ ref_start s ->
  run pre (t ++ s) ln = rmap (cons (XText ln t)) (run (pre ++ t) s (ln + count_nl t)).
Proof.
  intros pre t s ln Ne Hn [->|R].
  - rewrite run_end. unfold run. rewrite refs_pass, refs_nil by assumption. cbn [pieces_loop].
    rewrite app_nil_r, app_length, skipn_pre. destruct (Nat.eqb_spec (length pre) (length pre + length t)); [|reflexivity].
    destruct t; [congruence|cbn in *; lia].
  - unfold run. rewrite refs_pass by assumption. rewrite app_length.
    destruct (ref_head (length pre + length t) s R) as (m & ms & -> & Em). cbn [pieces_loop]. rewrite Em.
    assert (H : (length pre <? length pre + length t) = true) by (apply Nat.ltb_lt; destruct t; [congruence|cbn; lia]).
    rewrite H. rewrite Nat.ltb_irrefl. rewrite slice_mid, <- app_assoc. cbn [xtext].
    unfold rmap. destruct (rbind _ _); reflexivity.
Qed.

Lemma run_dollar : forall pre s ln,
  run pre (L "$$" ++ s) ln = rmap (cons (XText ln (L "$"))) (run (pre ++ L "$$") s ln).
Proof.
  intros pre s ln. unfold run. rewrite refs_dollar. cbn [pieces_loop mstart mend]. rewrite Nat.ltb_irrefl.
  unfold group. cbn [mcaps List.find option_map xtext rbind]. rewrite app_length, <- app_assoc.
  change (length (L "$$")) with 2. change (count_nl (L "$")) with 0. rewrite Nat.add_0_r.
  unfold rmap. destruct (pieces_loop _ _ _ _ _); reflexivity.
Qed.
Lemma run_name : forall pre c n s ln, name_start c = true -> starred name_rest n -> stops (fun c => name_rest c = true) s ->
  run pre (L "$" ++ (c :: n) ++ s) ln = rmap (cons (XExpr ln (c :: n))) (run (pre ++ L "$" ++ c :: n) s ln).
Proof.
  intros pre c n s ln Hc Hn Hs. unfold run. rewrite refs_name by assumption. cbn [pieces_loop mstart mend]. rewrite Nat.ltb_irrefl.
  unfold group. cbn [mcaps List.find fst snd Nat.eqb option_map xexpr rbind].
  assert (E : count_nl (c :: n) = 0).
  { apply names_no_nl. constructor; [|exact Hn]. unfold name_rest. now rewrite Hc. }
  rewrite E, Nat.add_0_r, app_length. rewrite <- !app_assoc. cbn [app L length].
  unfold rmap. destruct (pieces_loop _ _ _ _ _); reflexivity.
Qed.

Lemma run_braced : forall pre s ln,
  run pre (L "${" ++ s) ln =
  rbind (xget_braced compile (pre ++ L "${" ++ s) (length pre + 2) ln) (fun r => let '(pos', ln', p) := r in
    rmap (cons p) (pieces_loop compile (pre ++ L "${" ++ s) (refs (length pre + 2) s) pos' ln')).
Proof.
  intros pre s ln. unfold run at 1. rewrite refs_brace. cbn [pieces_loop mstart mend]. rewrite Nat.ltb_irrefl.
  unfold group. cbn [mcaps List.find fst snd Nat.eqb option_map].
  match goal with |- rmap _ ?r = _ => destruct r; reflexivity end.
Qed.

(** The end of an expression. *)
Lemma get_braced_ok : forall pre ws rest ln pos' ln' p, starred is_space ws -> stops space rest ->
  xget_braced compile (pre ++ ws ++ rest) (length pre) ln = Ok (pos', ln', p) <->
  exists e s l o, rest = e ++ L "}" ++ s /\ compile rest = CErr l o /\ expr_end rest l o = length e + 1 /\
    compile e = COk /\ p = XExpr ln e /\ ln' = ln + count_nl e /\ pos' = length pre + length ws + length e + 1.
Proof.
  intros pre ws rest ln pos' ln' p Hw Hr. unfold xget_braced.
  assert (E : lstrip (ws ++ rest) = rest).
  { unfold lstrip. rewrite dropwhile_app_all by (apply forallb_forall; rewrite <- Forall_forall; exact Hw).
    destruct rest as [|c r]; [reflexivity|]. cbn in Hr. unfold space in Hr. cbn. destruct (is_space c); [now destruct Hr|reflexivity]. }
  rewrite skipn_pre, E, app_length. replace (length pre + (length ws + length rest - length rest)) with (length (pre ++ ws)) by (rewrite app_length; lia).
  rewrite app_assoc, skipn_pre.
  assert (Sl : forall n, slice (length (pre ++ ws)) (length (pre ++ ws) + n) ((pre ++ ws) ++ rest) = firstn n rest).
  { intros n. unfold slice. rewrite skipn_pre. f_equal. lia. }
  assert (Sl1 : forall n, slice (length (pre ++ ws)) (length (pre ++ ws) + n - 1) ((pre ++ ws) ++ rest) = firstn (n - 1) rest).
  { intros n. unfold slice. rewrite skipn_pre. f_equal. lia. }
  destruct (compile rest) as [|l o|x] eqn:C.
  - split; [discriminate|]. intros (e & s & l & o & _ & H & _). discriminate.
  - rewrite Sl, Sl1. set (n := expr_end rest l o) in *. split.
    + destruct (rev (firstn n rest)) as [|c r] eqn:R; [discriminate|].
      assert (F : firstn n rest = rev r ++ [c]).
      { rewrite <- (rev_involutive (firstn n rest)), R. reflexivity. }
      destruct (N.eqb_spec c c_rbrace) as [->|]; [|discriminate].
      destruct (compile (firstn (n - 1) rest)) eqn:C'; [|discriminate|discriminate].
      cbn [xexpr]. intros H. assert (H1 : length (pre ++ ws) + n = pos' /\ ln + count_nl (firstn (n-1) rest) = ln' /\ XExpr ln (firstn (n-1) rest) = p)
        by (repeat split; congruence). destruct H1 as (<- & <- & <-).
      assert (Hn : n <= length rest).
      { destruct (le_lt_dec n (length rest)); [assumption|]. rewrite firstn_all2 in C' by lia. congruence. }
      assert (Ln : n = S (length (rev r))).
      { pose proof (firstn_length_le rest Hn) as Q. rewrite F, app_length in Q. cbn in Q. lia. }
      assert (F1 : firstn (n - 1) rest = rev r).
      { rewrite <- (firstn_skipn n rest), F, <- app_assoc, Ln. cbn [Nat.sub]. rewrite Nat.sub_0_r.
        now rewrite firstn_app, Nat.sub_diag, firstn_all, app_nil_r. }
      exists (rev r), (skipn n rest), l, o. rewrite F1 in *. repeat split; try assumption; try reflexivity.
      * rewrite <- (firstn_skipn n rest) at 1. rewrite F, <- app_assoc. reflexivity.
      * fold n. lia.
      * rewrite app_length. lia.
    + intros (e & s & l' & o' & Er & El & Ee & Ce & -> & -> & ->).
      assert (l' = l /\ o' = o) as [-> ->] by (split; congruence). fold n in Ee. rewrite Ee.
      assert (F : firstn (length e + 1) rest = e ++ L "}").
      { rewrite Er, app_assoc. change (length e + 1) with (length e + length (L "}")). rewrite <- app_length.
        now rewrite firstn_app, Nat.sub_diag, firstn_all, app_nil_r. }
      assert (F1 : firstn (length e + 1 - 1) rest = e).
      { rewrite Er. replace (length e + 1 - 1) with (length e) by lia. now rewrite firstn_app, Nat.sub_diag, firstn_all, app_nil_r. }
      rewrite F, F1, rev_app_distr. change (rev (L "}") ++ rev e) with (c_rbrace :: rev e). cbv iota. change (N.eqb c_rbrace c_rbrace) with true. cbv iota. rewrite Ce.
      cbn [xexpr]. rewrite app_length. do 3 f_equal. lia.
  - split; [discriminate|]. intros (e & s & l & o & _ & H & _). discriminate.
Qed.

Lemma spaces_no_ref : forall ws s, starred is_space ws -> no_ref ws s.
Proof.
  intros ws s H t1 t2 -> Ne (c & v & E & _). destruct t2 as [|x t2]; [congruence|]. cbn in E. injection E as -> _.
  apply Forall_app in H as [_ H]. inversion H; subst. discriminate.
Qed.
Lemma brace_no_ref : forall s, no_ref (L "}") s.
Proof.
  intros s t1 t2 E Ne (c & v & Ev & _). destruct t1 as [|y t1].
  - cbn in E. subst t2. discriminate.
  - cbn in E. injection E as _ E. symmetry in E. apply app_eq_nil in E as [_ ->]. congruence.
Qed.
(** What comes after the closing brace does not matter. *)
Lemma no_ref_brace : forall e s, no_ref e (L "}") -> no_ref e (L "}" ++ s).
Proof.
  intros e s H t1 t2 E Ne (c & v & Ev & D). apply (H t1 t2 E Ne).
  destruct t2 as [|x t2]; [congruence|]. destruct t2 as [|y t2]; cbn in Ev; injection Ev as -> <- _.
  - destruct D as [D|[D|D]]; discriminate.
  - exists y, (t2 ++ L "}"). auto.
Qed.

Lemma run_after_braced : forall pre ws e s ln, starred is_space ws -> no_ref e (L "}") ->
  pieces_loop compile (pre ++ L "${" ++ ws ++ e ++ L "}" ++ s) (refs (length pre + 2) (ws ++ e ++ L "}" ++ s))
    (length pre + 2 + length ws + length e + 1) ln
  = run (pre ++ L "${" ++ ws ++ e ++ L "}") s ln.
Proof.
  intros pre ws e s ln Hw He. unfold run.
  rewrite (refs_pass ws) by now apply spaces_no_ref.
  rewrite (refs_pass e) by now apply no_ref_brace.
  rewrite (refs_pass (L "}")) by apply brace_no_ref.
  rewrite <- !app_assoc. rewrite !app_length. change (length (L "}")) with 1. change (length (L "${")) with 2.
  replace (length pre + 2 + length ws + length e + 1) with (length pre + (2 + (length ws + (length e + 1)))) by lia.
  reflexivity.
Qed.

Lemma ref_two : forall u s, 2 <= length u -> ref_start (u ++ s) <-> ref_start u.
Proof.
  intros [|x [|y u]] s H; cbn in H; try lia. split; intros (c & v & E & D); cbn in E; injection E as -> <- _; exists y.
  - exists u. auto.
  - exists (u ++ s). auto.
Qed.
Lemma no_ref_inner : forall e1 e2 s, no_ref e1 (e2 ++ L "}") -> no_ref e1 (e2 ++ L "}" ++ s).
Proof.
  intros e1 e2 s H t1 t2 E Ne R. apply (H t1 t2 E Ne). apply (ref_two _ s); [rewrite !app_length; destruct t2; [congruence|cbn; lia]|].
  now rewrite <- !app_assoc.
Qed.
Lemma inner_or_not : forall e, no_ref e (L "}") \/ exists e1 e2, e = e1 ++ e2 /\ no_ref e1 (e2 ++ L "}") /\ ref_start (e2 ++ L "}").
Proof.
  intros e. destruct (first_ref (e ++ L "}")) as [H|(t & v & E & Hn & Hr)].
  - left. intros t1 t2 -> Ne R. apply (H t1 (t2 ++ L "}")); [now rewrite <- app_assoc|now destruct t2|]. now rewrite app_nil_r.
  - right. assert (Hv : 2 <= length v) by (destruct Hr as (c & w & -> & _); cbn; lia). destruct (app_long t e (L "}") v) as (e2 & ->).
    + now symmetry.
    + apply (f_equal (@length _)) in E. rewrite !app_length in E. cbn in E. lia.
    + rewrite <- app_assoc in E. apply app_inv_head in E. subst v. now exists t, e2.
Qed.
(** The next reference is inside of the expression. *)
Lemma run_inside : forall pre ws e1 v ln pos, starred is_space ws -> no_ref e1 v -> ref_start v -> length pre + 2 + length ws + length e1 <= pos ->
  pieces_loop compile (pre ++ L "${" ++ ws ++ e1 ++ v) (refs (length pre + 2) (ws ++ e1 ++ v)) pos ln = run (pre ++ L "${" ++ ws ++ e1) v ln.
Proof.
  intros pre ws e1 v ln pos Hw He Hv Hp. unfold run.
  rewrite (refs_pass ws) by now apply spaces_no_ref. rewrite (refs_pass e1) by exact He.
  rewrite <- !app_assoc. rewrite !app_length. change (length (L "${")) with 2.
  replace (length pre + (2 + (length ws + length e1))) with (length pre + 2 + length ws + length e1) by lia.
  destruct (ref_head (length pre + 2 + length ws + length e1) v Hv) as (m & ms & -> & Em). cbn [pieces_loop]. rewrite Em, Nat.ltb_irrefl.
  destruct (Nat.ltb_spec pos (length pre + 2 + length ws + length e1)); [lia|reflexivity].
Qed.

Lemma rmap_Ok : forall {A B} (f : A -> B) r b, rmap f r = Ok b <-> exists a, r = Ok a /\ b = f a.
Proof.
  intros A B f [a|e] b; cbn; split; intros H.
  - exists a. split; congruence.
  - destruct H as (x & E & ->). congruence.
  - discriminate.
  - destruct H as (x & E & _). discriminate.
Qed.

Lemma stops_brace : forall e s, stops space (e ++ L "}") <-> stops space (e ++ L "}" ++ s).
Proof. intros [|x e] s; cbn; tauto. Qed.

Lemma reads_run : forall ln s ps, reads compile ln s ps -> forall pre, run pre s ln = Ok ps.
Proof.
  induction 1 as [ln|ln t s ps Ne Hn Hs R IH|ln s ps R IH|ln c n s ps Hc Hn Hs R IH|ln ws e s l o ps Hw Hst C Ee Ce Nr R IH|ln ws e1 e2 s l o ps Hw Hst C Ee Ce Nr Rs R IH]; intros pre.
  - apply run_end.
  - rewrite run_text by assumption. now rewrite IH.
  - rewrite run_dollar. now rewrite IH.
  - rewrite run_name by assumption. now rewrite IH.
  - rewrite run_braced.
    assert (G : xget_braced compile (pre ++ L "${" ++ ws ++ e ++ L "}" ++ s) (length pre + 2) ln =
      Ok (length pre + 2 + length ws + length e + 1, ln + count_nl e, XExpr ln e)).
    { pose proof (get_braced_ok (pre ++ L "${") ws (e ++ L "}" ++ s) ln) as Q. rewrite app_length in Q.
      rewrite <- !app_assoc in Q. change (length (L "${")) with 2 in Q. apply Q; [exact Hw|now apply stops_brace|].
      exists e, s, l, o. auto 10. }
    rewrite G. cbn [rbind]. rewrite run_after_braced by assumption. now rewrite IH.
  - rewrite run_braced.
    assert (G : xget_braced compile (pre ++ L "${" ++ ws ++ e1 ++ e2 ++ L "}" ++ s) (length pre + 2) ln =
      Ok (length pre + 2 + length ws + length (e1 ++ e2) + 1, ln + count_nl (e1 ++ e2), XExpr ln (e1 ++ e2))).
    { pose proof (get_braced_ok (pre ++ L "${") ws (e1 ++ e2 ++ L "}" ++ s) ln) as Q. rewrite app_length in Q.
      rewrite <- !app_assoc in Q. change (length (L "${")) with 2 in Q. apply Q; [exact Hw| |].
      - destruct e1; [destruct e2; [|exact Hst]|exact Hst]. destruct Rs as (c & v & E & _). discriminate E.
      - exists (e1 ++ e2), s, l, o. rewrite <- app_assoc. auto 10. }
    rewrite G. cbn [rbind]. rewrite run_inside; [now rewrite IH|exact Hw|now apply no_ref_inner| |rewrite app_length; lia].
    apply (ref_two _ s) in Rs; [now rewrite <- app_assoc in Rs|]. destruct e2; [destruct Rs as (c & v & E & _); discriminate E|rewrite app_length; cbn; lia].
Qed.

Lemma dec_spaces : forall s, exists ws rest, s = ws ++ rest /\ starred is_space ws /\ stops space rest.
Proof.
  intros s. exists (takewhile is_space s), (dropwhile is_space s). split; [symmetry; apply take_drop|].
  split; [apply P_Text2.takewhile_all|apply dropwhile_stops].
Qed.

Lemma run_reads : forall n s ps pre ln, length s <= n -> run pre s ln = Ok ps -> reads compile ln s ps.
Proof.
  induction n as [|n IH]; intros s ps pre ln Hl R.
  - destruct s; [|cbn in Hl; lia]. rewrite run_end in R. assert (ps = []) as -> by congruence. constructor.
  - destruct s as [|x s0] eqn:Es. { rewrite run_end in R. assert (ps = []) as -> by congruence. constructor. }
    rewrite <- Es in *. assert (Hne : s <> []) by (rewrite Es; discriminate). clear Es x s0.
    assert (X : (exists t v, s = t ++ v /\ t <> [] /\ no_ref t v /\ (v = [] \/ ref_start v)) \/ ref_start s).
    { destruct (first_ref s) as [N0|(t & v & -> & N0 & Rv)].
      - left. exists s, []. rewrite app_nil_r. auto.
      - destruct t as [|y t]; [right; exact Rv|]. left. exists (y :: t), v. repeat split; auto. discriminate. }
    destruct X as [(t & v & -> & Ne & Nr & Hv)|Rs].
    + rewrite run_text in R by assumption. apply rmap_Ok in R as (ps' & R & ->).
      apply x_text; try assumption. apply (IH v ps' (pre ++ t)); [|exact R].
      rewrite app_length in Hl. destruct t; [congruence|cbn in Hl; lia].
    + destruct Rs as (c & v & -> & D). destruct (name_start c) eqn:Nc.
      * assert (Es : c_dollar :: c :: v = L "$" ++ (c :: takewhile name_rest v) ++ dropwhile name_rest v).
        { cbn. now rewrite take_drop. }
        rewrite Es in *. pose proof (P_Text2.takewhile_all name_rest v) as T. pose proof (dropwhile_stops name_rest v) as St.
        rewrite run_name in R by assumption. apply rmap_Ok in R as (ps' & R & ->).
        apply x_name; try assumption. eapply IH; [|exact R].
        rewrite !app_length in Hl. cbn in Hl. lia.
      * destruct D as [D|[-> | ->]]; [discriminate| |].
        -- change (c_dollar :: c_lbrace :: v) with (L "${" ++ v) in *.
           destruct (dec_spaces v) as (ws & rest & -> & Hw & Hr). rewrite run_braced in R.
           destruct (xget_braced _ _ _ _) as [[[pos' ln'] p]|] eqn:G; [|discriminate]. cbn [rbind] in R.
           apply rmap_Ok in R as (ps' & R & ->).
           pose proof (get_braced_ok (pre ++ L "${") ws rest ln pos' ln' p Hw Hr) as Q. rewrite app_length in Q.
           rewrite <- !app_assoc in Q. change (length (L "${")) with 2 in Q. apply Q in G.
           destruct G as (e & s & l & o & -> & C & Ee & Ce & -> & -> & ->).
           destruct (inner_or_not e) as [Fe|(e1 & e2 & -> & Fe & Rs)].
           ++ rewrite run_after_braced in R by assumption.
              eapply x_braced; try eassumption; [now apply stops_brace in Hr|].
              eapply IH; [|exact R]. rewrite !app_length in Hl. cbn in Hl. lia.
           ++ assert (L2 : 1 <= length e2) by (destruct e2; [destruct Rs as (c & v & E & _); discriminate E|cbn; lia]).
              rewrite <- !app_assoc in R, Ee, C, Hl, Hr |- *. rewrite run_inside in R; [|exact Hw|now apply no_ref_inner| |rewrite app_length; lia].
              ** eapply x_inner; try eassumption; [destruct e1; [destruct e2; [cbn in L2; lia|exact Hr]|exact Hr]|].
                 eapply IH; [|exact R]. rewrite !app_length in *. cbn in *. lia.
              ** apply (ref_two _ s) in Rs; [now rewrite <- app_assoc in Rs|rewrite app_length; cbn; lia].
        -- change (c_dollar :: c_dollar :: v) with (L "$$" ++ v) in *. rewrite run_dollar in R.
           apply rmap_Ok in R as (ps' & R & ->). apply x_dollar. eapply IH; [|exact R].
           cbn in Hl. lia.
Qed.

Lemma inner_not_simple : forall ln e1 e2, ref_start (e2 ++ L "}") -> ~ simple_expr (XExpr ln (e1 ++ e2)).
Proof. intros ln e1 e2 R S. apply (S e1 e2 eq_refl); [|exact R]. intros ->. destruct R as (c & v & E & _). discriminate E. Qed.

Theorem pieces_spec : forall ln s ps, reads compile ln s ps <-> pieces compile s ln = Ok ps.
Proof.
  intros ln s ps. split.
  - intros R. rewrite run_start. now apply reads_run.
  - intros R. eapply run_reads; [reflexivity|rewrite <- run_start; exact R].
Qed.

(** ** Spans and lines *)

Lemma reads_spans : forall ln s ps, reads compile ln s ps -> Forall simple_expr ps -> exists ss, s = concat ss /\ Forall2 xspells ss ps.
Proof.
  induction 1 as [ln|ln t s ps Ne Hn Hs R IH|ln s ps R IH|ln c n s ps Hc Hn Hs R IH|ln ws e s l o ps Hw Hst C Ee Ce Nr R IH|ln ws e1 e2 s l o ps Hw Hst C Ee Ce Nr Rs R IH];
    intros Si; [|apply Forall_cons_iff in Si as [Si1 Si]; destruct (IH Si) as (ss & E & F)..];
    [|subst s|subst s|subst s|subst s|now apply inner_not_simple in Si1].
  - exists []. auto.
  - exists (t :: ss). split; [reflexivity|]. constructor; [apply xs_text|exact F].
  - exists (L "$$" :: ss). split; [reflexivity|]. constructor; [apply xs_dollar|exact F].
  - exists ((L "$" ++ c :: n) :: ss). split; [reflexivity|]. constructor; [apply xs_name|exact F].
  - exists ((L "${" ++ ws ++ e ++ L "}") :: ss). split; [cbn [concat]; now rewrite <- !app_assoc|]. constructor; [now apply xs_braced|exact F].
Qed.

Lemma count_nl_ws : forall ws, ~ In c_nl ws -> count_nl ws = 0.
Proof. intros ws H. now apply count_zero. Qed.

Lemma reads_lines : forall ln s ps, reads compile ln s ps -> Forall simple_expr ps -> no_gap s -> exists ss, s = concat ss /\ on_lines ln ss ps.
Proof.
  induction 1 as [ln|ln t s ps Ne Hn Hs R IH|ln s ps R IH|ln c n s ps Hc Hn Hs R IH|ln ws e s l o ps Hw Hst C Ee Ce Nr R IH|ln ws e1 e2 s l o ps Hw Hst C Ee Ce Nr Rs R IH]; intros Si G;
    [|apply Forall_cons_iff in Si as [Si1 Si]; specialize (IH Si)..]; [| | | | |now apply inner_not_simple in Si1].
  - exists []. split; [reflexivity|constructor].
  - destruct IH as (ss & -> & O). { intros a w b E. apply (G (t ++ a) w b). now rewrite E, <- app_assoc. }
    exists (t :: ss). split; [reflexivity|]. constructor; [apply xs_text|reflexivity|exact O].
  - destruct IH as (ss & -> & O). { intros a w b E. apply (G (L "$$" ++ a) w b). now rewrite E, <- app_assoc. }
    exists (L "$$" :: ss). split; [reflexivity|]. constructor; [apply xs_dollar|reflexivity|].
    change (count_nl (L "$$")) with 0. now rewrite Nat.add_0_r.
  - destruct IH as (ss & -> & O). { intros a w b E. apply (G ((L "$" ++ c :: n) ++ a) w b). now rewrite E, <- !app_assoc. }
    exists ((L "$" ++ c :: n) :: ss). split; [cbn [concat]; now rewrite <- !app_assoc|]. constructor; [apply xs_name|reflexivity|].
    assert (E : count_nl (L "$" ++ c :: n) = 0).
    { rewrite count_nl_app. change (count_nl (L "$")) with 0. apply names_no_nl. constructor; [unfold name_rest; now rewrite Hc|exact Hn]. }
    now rewrite E, Nat.add_0_r.
  - destruct IH as (ss & -> & O). { intros a w b E. apply (G ((L "${" ++ ws ++ e ++ L "}") ++ a) w b). now rewrite E, <- !app_assoc. }
    exists ((L "${" ++ ws ++ e ++ L "}") :: ss). split; [cbn [concat]; now rewrite <- !app_assoc|]. constructor; [now apply xs_braced|reflexivity|].
    assert (Nw : ~ In c_nl ws) by (apply (G [] ws (e ++ L "}" ++ concat ss)); [reflexivity|exact Hw]).
    rewrite !count_nl_app, (count_nl_ws ws Nw). change (count_nl (L "${")) with 0. change (count_nl (L "}")) with 0.
    now rewrite Nat.add_0_r.
Qed.
End Loop.
