(** * Text templates: plain texts, spans, unbalanced blocks *)

From Coq Require Import Ascii String List Arith NArith ZArith Bool Lia.
From Verif Require Import PyStr PyStrLemmas Regex RegexLemmas M_NameGen M_Values M_IR M_Exec M_Text S_Text
  P_Text P_Text2 P_Text3 P_Text4 P_Text5 P_Text6.
Import ListNotations.
Open Scope list_scope.

(** ** Sources without directives *)

Lemma case_mark : forall prev s g t v, dcase prev s g t v -> In c_dollar s \/ In c_pct s.
Proof.
  intros prev s g t v D. destruct D; try (left; cbn; tauto); right; rewrite ?in_app_iff; cbn; tauto.
Qed.
Lemma scan_plain : forall compile source, source <> [] -> ~ In c_dollar source -> ~ In c_pct source ->
  scan compile source = [TText (1 + count_nl source) source].
Proof.
  intros compile source Ne Nd Np. unfold scan.
  pose proof (finditer_spec text_pattern source text_never_empty) as F.
  inversion F as [f H|f m ms rest H1 H2 H3 H4 H5 H6]; subst.
  - cbn [scan_loop]. destruct (Nat.eqb_spec 0 (length source)) as [E|E]; [destruct source; [congruence|discriminate]|]. reflexivity.
  - exfalso. rewrite match_at_pos in H4. destruct (directive_case _ _ _ _ H4) as (g & t & _ & D).
    assert (Sub : forall c, In c (skipn (mstart m) source) -> In c source).
    { intros c Hc. rewrite <- (firstn_skipn (mstart m) source). apply in_or_app. now right. }
    apply case_mark in D as [D|D]; apply Sub in D; contradiction.
Qed.
Lemma unescaped_plain : forall s, ~ In c_bsl s -> unescaped s s.
Proof.
  induction s as [|c s IH]; intros H; [constructor|]. apply u_char; [intros ->; apply H; now left|].
  apply IH. intros ?. apply H. now right.
Qed.

(** ** Spans *)

Lemma grammar_spans : forall compile prev ln s ts, grammar compile prev ln s ts ->
  exists ps, s = concat ps /\ Forall2 spells ps ts.
Proof.
  intros compile prev ln s ts G. induction G as
    [|prev ln t s ts Ne O G (ps & -> & F)|prev ln s ts G (ps & -> & F)|prev ln c n s ts Hc Hn Hs G (ps & -> & F)
     |prev ln e s l o ts Hc He G (ps & -> & F)|prev ln ws name body s ts B Sw Nn Fn Sb Nb G (ps & -> & F)
     |prev ln ws name body B Sw Nn Fn Sb Nb|prev ln op name body dash bl s ts Ho Nn Fn Sb Cl Fi G (ps & -> & F)].
  - exists []. split; [reflexivity|constructor].
  - exists (t :: ps). split; [reflexivity|]. constructor; [apply sp_text|exact F].
  - exists (L "$$" :: ps). split; [reflexivity|]. constructor; [apply sp_dollar|exact F].
  - exists ((L "$" ++ c :: n) :: ps). split; [cbn [concat]; now rewrite <- app_assoc|]. constructor; [apply sp_name|exact F].
  - exists ((L "${" ++ e ++ L "}") :: ps). split; [cbn [concat]; now rewrite <- !app_assoc|]. constructor; [apply sp_braced|exact F].
  - exists ((ws ++ L "%" ++ name ++ body ++ [c_nl]) :: ps). split; [cbn [concat]; now rewrite <- !app_assoc|].
    constructor; [apply sp_line; [exact Sw|now left]|exact F].
  - exists [ws ++ L "%" ++ name ++ body; []]. split; [cbn [concat]; now rewrite !app_nil_r|].
    constructor; [|constructor; [apply sp_text|constructor]].
    rewrite <- (app_nil_r body) at 1. apply sp_line; [exact Sw|now right].
  - exists ((op ++ name ++ body ++ dash ++ L "%}" ++ bl) :: ps). split; [cbn [concat]; now rewrite <- !app_assoc|].
    constructor; [|exact F].
    assert (Fb : Forall blank bl) by (inversion Cl; subst; [constructor|assumption]).
    assert (Hc : In (dash ++ L "%}") [L "%}"; L "-%}"]) by (inversion Cl; subst; cbn; tauto).
    replace (body ++ dash ++ L "%}" ++ bl) with (body ++ (dash ++ L "%}") ++ bl) by (now rewrite <- app_assoc).
    destruct Ho as [->|(_ & ws & Sw & ->)].
    + apply (sp_tag ln [] (L "{%") name body (dash ++ L "%}") bl); try assumption; [constructor|now left].
    + rewrite <- app_assoc. apply (sp_tag ln ws (L "{%-") name body (dash ++ L "%}") bl); try assumption. right. now left.
Qed.

(** ** Unbalanced blocks *)

Lemma trailing_backslash : forall s t, unescaped s t -> unescape_newlines (s ++ [c_bsl]) = Raise "IndexError".
Proof.
  intros s t U. induction U as [|c s t Nc U IH|s t U IH|c s t Nc U IH]; cbn [app unescape_newlines].
  - reflexivity.
  - destruct (N.eqb_spec c c_bsl); [congruence|]. now rewrite IH.
  - change (N.eqb c_bsl c_bsl) with true. cbv iota. now rewrite IH.
  - change (N.eqb c_bsl c_bsl) with true. cbv iota. now rewrite IH.
Qed.

Section Parser.
Variable autoescape : bool.
Variable shlex_split : str -> result (list str).
Variable helper : nat -> str.
Notation parse := (parse autoescape shlex_split helper).
Notation pb := (pb autoescape shlex_split helper).

(** Names that [_parse_...] methods exist for. *)
Definition known_tags : list str :=
  openers ++ [L "case"; L "else"; L "body"].

Lemma step_unknown : forall rec st l t x ts funs mods ind ch k, smem t st = false -> ~ In t known_tags ->
  step autoescape shlex_split helper rec st (Pst (TTag l t x :: ts) funs mods ind ch k) = Raise "AttributeError".
Proof.
  intros rec st l t x ts funs mods ind ch k H K. unfold step. cbn [p_toks]. rewrite H.
  assert (Nt : forall o, In o known_tags -> seqb t o = false).
  { intros o Ho. destruct (seqb_spec t o); [subst; contradiction|reflexivity]. }
  rewrite !Nt by (cbn; tauto). reflexivity.
Qed.

Lemma after_written : forall f ts rest, written shlex_split f ts -> else_apart f -> forall e,
  (forall funs mods ch k, pb [] (Pst rest funs mods false ch k) = Raise e) -> parse (ts ++ rest) = Raise e.
Proof.
  intros f ts rest W A e H. rewrite parse_is.
  destruct (all_parse autoescape shlex_split helper f ts W A false false 0) as (ons & ofs & _ & _ & P).
  rewrite (P [] rest _ _ (allows_top f)), H. reflexivity.
Qed.

Lemma unknown_tag : forall f ts l t x rest, written shlex_split f ts -> else_apart f -> ~ In t known_tags ->
  parse (ts ++ TTag l t x :: rest) = Raise "AttributeError".
Proof.
  intros f ts l t x rest W A K. apply (after_written f); try assumption. intros. rewrite pb_step.
  apply step_unknown; [reflexivity|exact K].
Qed.

Lemma open_if : forall f ts l e b bs, written shlex_split f ts -> else_apart f -> written shlex_split b bs -> else_apart b ->
  has_else b = false -> parse (ts ++ TTag l (L "if") e :: bs) = Raise "AttributeError".
Proof.
  intros f ts l e b bs W A Wb Ab Nb. apply (after_written f); try assumption. intros. rewrite pb_step.
  rewrite st_if by reflexivity.
  destruct (all_parse autoescape shlex_split helper b bs Wb Ab false ch k) as (ons & ofs & _ & _ & P).
  specialize (P [L "end"; L "else"] [] funs mods (allows_if b Nb)). rewrite app_nil_r in P. rewrite P, pb_step. reflexivity.
Qed.
Lemma open_case : forall f ts l e b bs, written shlex_split f ts -> else_apart f -> written shlex_split b bs -> else_apart b ->
  has_else b = false -> parse (ts ++ TTag l (L "case") e :: bs) = Raise "AssertionError".
Proof.
  intros f ts l e b bs W A Wb Ab Nb. apply (after_written f); try assumption. intros. rewrite pb_step.
  rewrite st_case by reflexivity.
  destruct (all_parse autoescape shlex_split helper b bs Wb Ab false ch k) as (ons & ofs & _ & _ & P).
  specialize (P [L "case"; L "else"; L "end"] [] funs mods (allows_case b Nb)). rewrite app_nil_r in P. rewrite P, (pb_step _ _ _ [L "case"; L "else"; L "end"]).
  unfold step. cbn [p_toks pre rmap rbind]. unfold push, with_toks. cbn [p_toks]. rewrite pb_step. reflexivity.
Qed.

(** A loop that is never ended ends with the template. *)
Lemma drop_end : forall t f ts l e b bs, In t [L "for"; L "switch"; L "def"] ->
  written shlex_split f ts -> else_apart f -> written shlex_split b bs -> else_apart b -> forall l' x,
  parse (ts ++ TTag l t e :: bs) = parse (ts ++ TTag l t e :: bs ++ [TTag l' (L "end") x]).
Proof.
  intros t f ts l e b bs Ht W A Wb Ab l' x. rewrite !parse_is. f_equal.
  destruct (all_parse autoescape shlex_split helper f ts W A false false 0) as (ons & ofs & _ & _ & P).
  rewrite !(P [] _ _ _ (allows_top f)). f_equal.
  assert (Pb : forall funs mods ind ch k, exists ob s1 s2,
    pb [L "end"] (Pst bs funs mods ind ch k) = Ok (ob, None, s1) /\
    pb [L "end"] (Pst (bs ++ [TTag l' (L "end") x]) funs mods ind ch k) = Ok (ob, Some (TTag l' (L "end") x), s2) /\ s1 = s2).
  { intros funs mods ind ch k. destruct (all_parse autoescape shlex_split helper b bs Wb Ab ind ch k) as (ob & fb & _ & _ & B).
    pose proof (B [L "end"] [] funs mods (allows_end b)) as B1. rewrite app_nil_r in B1.
    pose proof (B [L "end"] [TTag l' (L "end") x] funs mods (allows_end b)) as B2.
    rewrite pb_end in B2 by reflexivity. rewrite (pb_step _ _ _ [L "end"] (Pst [] _ _ _ _ _)) in B1. cbn [step p_toks pre rmap rbind] in *.
    eexists _, _, _. split; [exact B1|]. split; [exact B2|reflexivity]. }
  destruct Ht as [<-|[<-|[<-|[]]]]; rewrite !(pb_step _ _ _ []).
  - rewrite !st_for by reflexivity. destruct (Pb (assign ofs [(L "__main__()", [])]) ([] ++ map (pair 0) (module_code f)) false (false || extending f) (0 + calls f)) as (ob & s1 & s2 & -> & -> & ->). reflexivity.
  - rewrite !st_switch by reflexivity. destruct (Pb (assign ofs [(L "__main__()", [])]) ([] ++ map (pair 0) (module_code f)) false (false || extending f) (0 + calls f)) as (ob & s1 & s2 & -> & -> & ->). reflexivity.
  - rewrite !st_def by reflexivity. destruct (Pb (assign ofs [(L "__main__()", [])]) ([] ++ map (pair 0) (module_code f)) true (false || extending f) (0 + calls f)) as (ob & s1 & s2 & -> & -> & ->). reflexivity.
Qed.
End Parser.
