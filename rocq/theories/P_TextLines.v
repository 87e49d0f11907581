(** * The lines of the expressions of a text template *)

From Coq Require Import Ascii String List NArith ZArith Bool Lia Arith.
From Verif Require Import PyStr PyStrLemmas M_IR M_Text S_Text S_TextTree S_TextLines M_Lnotab S_Lines P_IR P_Text3 P_XText P_Text7 P_Lines1 P_Lines2 P_Lines4.
Import ListNotations.
Open Scope nat_scope.
Open Scope list_scope.

(** ** Lines of tokens and lines of the source *)
Definition counts (ln : nat) (ps : list str) (ts : list tok) : Prop :=
  forall a p b a' l e b', ps = a ++ p :: b -> ts = a' ++ TExpr l e :: b' -> length a = length a' ->
    l + blank_lines a a' = ln + count_nl (concat a ++ p).
Definition lost (p : str) (t : tok) : nat := match t with TTag _ _ _ => count_nl (white p) | _ => 0 end.
Lemma blank_cons : forall p t ps ts, blank_lines (p :: ps) (t :: ts) = lost p t + blank_lines ps ts.
Proof. intros p t ps ts. destruct t; reflexivity. Qed.
Lemma counts_cons : forall ln ln' q t ps ts, counts ln' ps ts -> ln' + lost q t = ln + count_nl q ->
  (forall l e, t = TExpr l e -> l = ln + count_nl q) -> counts ln (q :: ps) (t :: ts).
Proof.
  intros ln ln' q t ps ts C E H a p b a' l e b' Ea Et El. destruct a as [|x a]; destruct a' as [|y a']; try discriminate.
  - cbn [app concat blank_lines] in *. assert (q = p /\ t = TExpr l e) as [-> ->] by (split; congruence). rewrite Nat.add_0_r. now apply (H l e).
  - cbn [app] in Ea, Et. assert (q = x /\ ps = a ++ p :: b) as [-> Ep] by (split; congruence). assert (t = y /\ ts = a' ++ TExpr l e :: b') as [-> Es] by (split; congruence).
    specialize (C a p b a' l e b' Ep Es ltac:(now injection El)). rewrite blank_cons. cbn [concat]. rewrite <- app_assoc, (count_nl_app x). lia.
Qed.
Lemma white_app : forall ws c s, Forall space ws -> is_space c = false -> white (ws ++ c :: s) = ws.
Proof. intros ws c s F Hc. induction F as [|x ws Hx F IH]; cbn [app white]; [now rewrite Hc|]. unfold space in Hx. rewrite Hx. now f_equal. Qed.
Lemma no_nl : forall (p : char -> Prop) s, ~ p c_nl -> Forall p s -> count_nl s = 0.
Proof. intros p s Np F. apply count_nl_ws. intros I1. rewrite Forall_forall in F. now apply F in I1. Qed.
Lemma no_nl_name : forall c n, name_start c = true -> Forall (fun c => name_rest c = true) n -> count_nl (c :: n) = 0.
Proof.
  intros c n Hc Fn. change (c :: n) with ([c] ++ n). rewrite count_nl_app.
  rewrite (no_nl (fun c => name_start c = true) [c]); [|intros X; vm_compute in X; discriminate|constructor; [exact Hc|constructor]].
  rewrite (no_nl (fun c => name_rest c = true) n); [reflexivity|intros X; vm_compute in X; discriminate|exact Fn].
Qed.
Lemma no_nl_letters : forall n, Forall letter n -> count_nl n = 0.
Proof. intros n. apply no_nl. intros X. vm_compute in X. discriminate. Qed.
Lemma no_nl_blank : forall n, Forall blank n -> count_nl n = 0.
Proof. intros n. apply no_nl. intros [X|X]; vm_compute in X; discriminate. Qed.

Lemma grammar_counts : forall compile prev ln s ts, grammar compile prev ln s ts ->
  exists ps, s = concat ps /\ Forall2 spells ps ts /\ counts ln ps ts.
Proof.
  intros compile prev ln s ts G. induction G as
    [|prev ln t s ts Ne O G (ps & -> & F & C)|prev ln s ts G (ps & -> & F & C)|prev ln c n s ts Hc Hn Hs G (ps & -> & F & C)
     |prev ln e s l o ts Hc He G (ps & -> & F & C)|prev ln ws name body s ts B Sw Nn Fn Sb Nb G (ps & -> & F & C)
     |prev ln ws name body B Sw Nn Fn Sb Nb|prev ln op name body dash bl s ts Ho Nn Fn Sb Cl Fi G (ps & -> & F & C)].
  - exists []. split; [reflexivity|]. split; [constructor|]. intros a p b a' l e b' Ea. destruct a; discriminate.
  - exists (t :: ps). split; [reflexivity|]. split; [constructor; [apply sp_text|exact F]|]. eapply counts_cons; [exact C|cbn [lost]; lia|discriminate].
  - exists (L "$$" :: ps). split; [reflexivity|]. split; [constructor; [apply sp_dollar|exact F]|]. eapply counts_cons; [exact C|cbn; lia|discriminate].
  - exists ((L "$" ++ c :: n) :: ps). split; [cbn [concat]; now rewrite <- app_assoc|]. split; [constructor; [apply sp_name|exact F]|].
    pose proof (no_nl_name c n Hc Hn) as Z.
    assert (E : count_nl (L "$" ++ c :: n) = 0) by (rewrite count_nl_app, Z; reflexivity).
    eapply counts_cons; [exact C|rewrite E; cbn [lost]; lia|]. intros l e X. assert (l = ln) as -> by congruence. rewrite E. lia.
  - exists ((L "${" ++ e ++ L "}") :: ps). split; [cbn [concat]; now rewrite <- !app_assoc|]. split; [constructor; [apply sp_braced|exact F]|].
    assert (E : count_nl (L "${" ++ e ++ L "}") = count_nl e) by (rewrite !count_nl_app; change (count_nl (L "${")) with 0; change (count_nl (L "}")) with 0; lia).
    eapply counts_cons; [exact C|rewrite E; cbn [lost]; lia|]. intros l0 e0 X. assert (l0 = ln + count_nl e) as -> by congruence. now rewrite E.
  - exists ((ws ++ L "%" ++ name ++ body ++ [c_nl]) :: ps). split; [cbn [concat]; now rewrite <- !app_assoc|].
    split; [constructor; [apply sp_line; [exact Sw|now left]|exact F]|]. eapply counts_cons; [exact C| |discriminate].
    cbn [lost]. change (L "%" ++ name ++ body ++ [c_nl]) with (c_pct :: (name ++ body ++ [c_nl])). rewrite (white_app ws c_pct (name ++ body ++ [c_nl]) Sw) by reflexivity. change (c_pct :: (name ++ body ++ [c_nl])) with (L "%" ++ name ++ body ++ [c_nl]). rewrite !count_nl_app, (no_nl_letters _ Fn), (count_nl_ws _ Nb).
    change (count_nl (L "%")) with 0. change (count_nl [c_nl]) with 1. lia.
  - exists [ws ++ L "%" ++ name ++ body; []]. split; [cbn [concat]; now rewrite !app_nil_r|]. split.
    + constructor; [|constructor; [apply sp_text|constructor]]. rewrite <- (app_nil_r body) at 1. apply sp_line; [exact Sw|now right].
    + intros a p b a' l e b' _ Et _. destruct a' as [|x [|y [|z a']]]; discriminate.
  - exists ((op ++ name ++ body ++ dash ++ L "%}" ++ bl) :: ps). split; [cbn [concat]; now rewrite <- !app_assoc|].
    assert (Fb : Forall blank bl) by (inversion Cl; subst; [constructor|assumption]).
    assert (Hc : In (dash ++ L "%}") [L "%}"; L "-%}"]) by (inversion Cl; subst; cbn; tauto).
    assert (Zd : count_nl dash = 0) by (inversion Cl; subst; reflexivity).
    split.
    + constructor; [|exact F]. replace (body ++ dash ++ L "%}" ++ bl) with (body ++ (dash ++ L "%}") ++ bl) by (now rewrite <- app_assoc).
      destruct Ho as [->|(_ & ws & Sw & ->)].
      * apply (sp_tag ln [] (L "{%") name body (dash ++ L "%}") bl); try assumption; [constructor|now left].
      * rewrite <- app_assoc. apply (sp_tag ln ws (L "{%-") name body (dash ++ L "%}") bl); try assumption. right. now left.
    + eapply counts_cons; [exact C| |discriminate]. cbn [lost].
      assert (W : count_nl (white (op ++ name ++ body ++ dash ++ L "%}" ++ bl)) = count_nl op).
      { destruct Ho as [->|(_ & ws & Sw & ->)]; [reflexivity|]. rewrite <- app_assoc. change (L "{%-" ++ name ++ body ++ dash ++ L "%}" ++ bl) with (c_lbrace :: L "%-" ++ name ++ body ++ dash ++ L "%}" ++ bl).
        rewrite white_app by (assumption || reflexivity). rewrite count_nl_app. change (count_nl (L "{%-")) with 0. lia. }
      rewrite W, !count_nl_app, (no_nl_letters _ Fn), (no_nl_blank _ Fb), Zd. change (count_nl (L "%}")) with 0. lia.
Qed.

(** ** Tokens come in the order of their lines *)
Definition line_of (t : tok) : option nat :=
  match t with TText l _ | TExpr l _ | TTag l _ _ => Some l | _ => None end.
Fixpoint chain (m : nat) (ts : list tok) : Prop :=
  match ts with
  | [] => True
  | t :: ts' => match line_of t with Some l => m <= l /\ chain l ts' | None => True end
  end.
Lemma chain_lower : forall ts m m0, m0 <= m -> chain m ts -> chain m0 ts.
Proof. intros [|t ts] m m0 L0 C; [exact Logic.I|]. cbn [chain] in *. destruct (line_of t); [|exact Logic.I]. split; [lia|tauto]. Qed.
Lemma grammar_chain : forall compile prev ln s ts, grammar compile prev ln s ts -> chain ln ts.
Proof.
  intros compile prev ln s ts G. induction G; cbn [chain line_of]; try (split; [lia|]); auto; try lia.
  all: try (split; [lia|exact Logic.I]).
  eapply chain_lower; [|exact IHG]. lia.
Qed.

(** ** The items of a template *)
Fixpoint tree_sites (f : tree) : list site :=
  match f with
  | G_nil => []
  | G_text ln _ f => (ln, None) :: tree_sites f
  | G_expr ln e f => (ln, Some e) :: tree_sites f
  | G_in _ _ b f | G_call _ _ b f => tree_sites b ++ tree_sites f
  | G_def _ _ f | G_block _ _ f => tree_sites f
  | G_py _ f | G_module _ f | G_extends _ f | G_import _ _ f | G_include _ f | G_nothing f => tree_sites f
  end.
Lemma tree_shown : forall f, code_sites (tree_sites f) = shown_at f.
Proof. induction f; cbn [tree_sites shown_at code_sites]; rewrite ?code_app; congruence. Qed.

Section Shlex.
Variable shlex_split : str -> result (list str).
Definition opt_list (e : option tok) : list tok := match e with Some t => [t] | None => [] end.
Lemma item_sites_code : forall texts item f, item_of_code texts item -> tree_sites (item f) = tree_sites f /\ shown_at (item f) = shown_at f.
Proof. intros texts item f [ls _|ls _]; split; reflexivity. Qed.
Lemma chain_opt : forall hi e ts, chain hi (opt_list e ++ ts) -> (forall t, e = Some t -> exists l n x, t = TTag l n x) -> chain hi ts.
Proof.
  intros hi [t|] ts C H; [|exact C]. destruct (H t eq_refl) as (l & n & x & ->). cbn [opt_list app chain line_of] in C. eapply chain_lower; [|apply C]. lia.
Qed.
Lemma takes_tag : forall st ts f e r, takes shlex_split st ts f e r -> forall t, e = Some t -> exists l n x, t = TTag l n x.
Proof. intros st ts f e r T. induction T; intros t0 E; eauto; try discriminate. exists l, n, x. congruence. Qed.
Lemma takes_track : forall st ts f e r, takes shlex_split st ts f e r -> forall m, 1 <= m -> chain m ts ->
  exists hi, m <= hi /\ track m (tree_sites f) hi /\ chain hi (opt_list e ++ r).
Proof.
  assert (Two : forall st ts b e1 ts1 m f e r, takes shlex_split st ts b e1 ts1 ->
    (exists h, m <= h /\ track m (tree_sites b) h /\ chain h (opt_list e1 ++ ts1)) -> 1 <= m ->
    (forall m, 1 <= m -> chain m ts1 -> exists hi, m <= hi /\ track m (tree_sites f) hi /\ chain hi (opt_list e ++ r)) ->
    exists hi, m <= hi /\ (track m (tree_sites b ++ tree_sites f) hi /\ track m (tree_sites f) hi) /\ chain hi (opt_list e ++ r)).
  { intros st ts b e1 ts1 m f e r T (h & A & B & C) Lm IH. apply chain_opt in C; [|eapply takes_tag; exact T].
    destruct (IH h ltac:(lia) C) as (hi & A2 & B2 & C2). exists hi. split; [lia|]. split; [|exact C2]. split; [eapply track_app; eassumption|eapply track_lower; eassumption]. }
  assert (Tag : forall m l n x ts, chain m (TTag l n x :: ts) -> chain m ts) by (intros m l n x ts [A B]; eapply chain_lower; eassumption).
  intros st ts f e r T. induction T; intros m Lm C;
    try (match goal with H : item_of_code _ _ |- _ => destruct (item_sites_code _ _ f H) as [-> _] end);
    cbn [tree_sites];
    try (apply Tag in C; now apply IHT);
    try (apply Tag in C; pose proof (Two _ _ _ _ _ m _ _ _ T1 (IHT1 m Lm C) Lm IHT2) as (hi & A & (B1 & B2) & D); exists hi; split; [exact A|]; split; assumption).
  - exists m. split; [lia|]. split; [now constructor|exact Logic.I].
  - exists m. split; [lia|]. split; [now constructor|exact C].
  - destruct C as [A C]. destruct (IHT ln ltac:(lia) C) as (hi & B & D & K). exists hi. split; [lia|]. split; [|exact K]. apply (tr_plain m ln); [exact A|lia|exact D].
  - destruct C as [A C]. destruct (IHT ln ltac:(lia) C) as (hi & B & D & K). exists hi. split; [lia|]. split; [|exact K]. apply tr_code; [exact A|lia|exact D].
  - apply Tag in C. destruct (IHT1 m Lm C) as (h & A & B & D). cbn [opt_list app] in D. destruct (IHT2 h ltac:(lia) D) as (hi & A2 & B2 & D2).
    exists hi. split; [lia|]. split; [eapply track_app; eassumption|exact D2].
  - apply Tag in C. destruct (IHT1 m Lm C) as (h & A & B & D). cbn [opt_list app] in D. destruct (IHT2 h ltac:(lia) D) as (hi & A2 & B2 & D2).
    exists hi. split; [lia|]. split; [eapply track_app; eassumption|exact D2].
Qed.
(** Without functions and blocks, all expressions are shown. *)
Lemma expressions_app : forall a b, expressions (a ++ b) = expressions a ++ expressions b.
Proof. intros. apply flat_map_app. Qed.
Lemma expressions_opt : forall e r, (forall t, e = Some t -> exists l n x, t = TTag l n x) -> expressions (opt_list e ++ r) = expressions r.
Proof. intros [t|] r H; [|reflexivity]. destruct (H t eq_refl) as (l & n & x & ->). reflexivity. Qed.
Lemma only_texts_shown : forall f l, only_texts f = Some l -> shown_at f = [].
Proof.
  induction f; intros l0 E; try discriminate; [reflexivity|]. cbn [only_texts shown_at] in *. destruct (only_texts f) as [l1|]; [|discriminate]. now apply (IHf l1).
Qed.
Lemma takes_expressions : forall st ts f e r, takes shlex_split st ts f e r -> Forall no_function ts ->
  expressions ts = shown_at f ++ expressions (opt_list e ++ r) /\ Forall no_function (opt_list e ++ r).
Proof.
  assert (Rest : forall e r, Forall no_function (opt_list e ++ r) -> Forall no_function r) by (intros e r F; apply Forall_app in F; tauto).
  intros st ts f e r T. induction T; intros F;
    try (match goal with H : item_of_code _ _ |- _ => destruct (item_sites_code _ _ f H) as [_ ->] end);
    cbn [shown_at app].
  all: try (apply Forall_cons_iff in F as [N0 F]).
  all: try (now apply IHT).
  all: try (exfalso; cbn [no_function] in N0; now destruct N0).
  all: try (match type of T1 with takes _ _ ?ts ?b ?e1 ?ts1 =>
    destruct (IHT1 F) as [A1 B1]; pose proof (expressions_opt e1 ts1 (takes_tag _ _ _ _ _ T1)) as A0; destruct (IHT2 (Rest _ _ B1)) as [A2 B2];
    split; [|exact B2]; rewrite A0, A2 in A1;
    try (match goal with O : only_texts _ = Some _ |- _ => rewrite (only_texts_shown _ _ O) in A1 end);
    first [rewrite <- app_assoc; exact A1|exact A1] end).
  - split; [reflexivity|constructor].
  - split; [reflexivity|]. now constructor.
  - destruct (IHT F) as [A B]. split; [|exact B]. change (expressions (TExpr ln x :: ts)) with ((ln, x) :: expressions ts). now rewrite A.
  - destruct (IHT1 F) as [A1 B1]. cbn [opt_list app] in A1, B1. destruct (IHT2 B1) as [A2 B2]. split; [|exact B2]. rewrite A2 in A1. rewrite <- app_assoc. exact A1.
  - destruct (IHT1 F) as [A1 B1]. cbn [opt_list app] in A1, B1. destruct (IHT2 B1) as [A2 B2]. split; [|exact B2]. rewrite A2 in A1. rewrite <- app_assoc. exact A1.
Qed.
End Shlex.

(** ** The generated code *)
Lemma fits_around : forall ps l tail s, fits 0 (items l) s -> Forall (fun x : site => fst x <= 0 /\ snd x = None) (sites_of tail) ->
  fits 0 ((ILines 0 ps :: body_iter l) ++ tail) s.
Proof.
  intros ps l tail s F Q. apply fits_then; [|exact Q]. apply (fits_after 0 (body_iter l) s [ILines 0 ps]); [now apply fits_body|].
  cbn [flat_map]. rewrite app_nil_r. apply quiet0.
Qed.
Lemma fits_quiet_node : forall n nodes s, Forall (fun x : site => fst x <= 0 /\ snd x = None) (sites_of (iter n)) -> fits 0 (items nodes) s -> fits 0 (items (n :: nodes)) s.
Proof. intros n nodes s Q F. cbn [flat_map]. now apply fits_after. Qed.
Lemma fits_indent : forall k a b s, fits k (a ++ b) s -> fits k (a ++ IIndent :: b) s.
Proof. intros k a b s F m hi Lk T. destruct (F m hi Lk T) as [A B]. rewrite sites_app in *. exact (conj A B). Qed.
Lemma quiet_one : forall ps, Forall (fun x : site => fst x <= 0 /\ snd x = None) (sites_of [ILines 0 ps]).
Proof. intros ps. cbn [flat_map]. rewrite app_nil_r. apply quiet0. Qed.
Lemma fits_construct : forall c e b s, fits 0 (items b) s -> fits 0 (iter (construct_node c e b)) s.
Proof.
  intros c e b s F. destruct c; cbn [construct_node].
  - apply (fits_indent 0 [ILines 0 (at0 [PFor e])] (body_iter b ++ [IDedent])). apply (fits_around _ b [IDedent] s F). constructor.
  - apply (fits_indent 0 [ILines 0 (at0 [PIf e])] (body_iter b ++ [IDedent])). apply (fits_around _ b [IDedent] s F). constructor.
  - apply (fits_indent 0 [ILines 0 (at0 [PElse])] (body_iter b ++ [IDedent])). apply (fits_around _ b [IDedent] s F). constructor.
  - intros m hi Lm T. pose proof (fits_around (at0 [PPushSwitch e; PIfFalse]) b [ILines 0 (at0 [PPopSwitch])] s F (quiet_one _) m hi Lm T) as K. exact K.
  - apply (fits_indent 0 [ILines 0 (at0 [PCase e])] (body_iter b ++ [IDedent])). apply (fits_around _ b [IDedent] s F). constructor.
Qed.
Section Nodes.
Variable autoescape : bool.
Variable helper : nat -> str.
Lemma tree_fits : forall f ch k, fits 0 (items (tree_nodes autoescape helper false ch k f)) (tree_sites f).
Proof.
  induction f; intros ch k; cbn [tree_nodes tree_sites app].
  - apply fits_nil.
  - cbn [flat_map]. apply (fits_app 0 _ [(ln, None)]); [apply fits_ntext|apply IHf].
  - cbn [flat_map]. apply (fits_app 0 _ [(ln, Some e)]); [apply fits_expr|apply IHf].
  - cbn [flat_map]. apply fits_app; [apply fits_construct, IHf1|apply IHf2].
  - apply IHf2.
  - cbn [flat_map]. apply fits_app; [|apply IHf2]. unfold mk_call. set (d := replace _ _ _). set (c := replace _ _ (replace _ _ _)).
    apply (fits_indent 0 [ILines 0 (at0 [PDecorate; PDef d])] (body_iter _ ++ [IDedent; ILines 0 (at0 [PYield c])])). apply (fits_around _ _ [IDedent; ILines 0 (at0 [PYield c])]); [apply IHf1|apply quiet_one].
  - destruct (ch || tree_extends f1); cbn [app]; [apply IHf2|]. apply fits_quiet_node; [apply quiet_one|apply IHf2].
  - apply fits_quiet_node; [|apply IHf]. apply quiet_one.
  - apply IHf.
  - apply fits_quiet_node; [apply quiet_one|apply IHf].
  - apply fits_quiet_node; [apply quiet_one|apply IHf].
  - apply fits_quiet_node; [apply quiet_one|apply IHf].
  - apply IHf.
Qed.

Lemma template_lines : forall md body others m hi, Forall (fun x : nat * list str => fst x = 0) md -> fits 0 (items body) m -> track 0 m hi ->
  exists rest, reported_code (generate_python (TemplateNode 0 md (NDef 0 false (L "__main__()") body :: others))) = map in_Z (code_sites m) ++ rest /\
    Forall (fun x : Z * str => Forall (fun y => (Z.of_nat (fst y) <= fst x)%Z) (code_sites m)) rest /\
    (others = [] -> rest = []).
Proof.
  intros md body others m hi M0 F T. set (main_decl := L "__main__()"). set (t := TemplateNode 0 md _).
  assert (B : track 0 (sites_of (match body_iter body with [] => [ILines 0 (at0 [PPass])] | b => b end)) hi /\
    code_sites (sites_of (match body_iter body with [] => [ILines 0 (at0 [PPass])] | b => b end)) = code_sites m).
  { apply fits_body in F. destruct (F 0 hi (le_n 0) T) as [B1 B2]. destruct (body_iter body) as [|i b]; [|now split]. cbn [flat_map code_sites] in B1, B2. split; [|exact B2].
    apply (tr_plain 0 0); [lia|lia|exact B1]. }
  destruct B as [B1 B2].
  set (main := match body_iter body with [] => [ILines 0 (at0 [PPass])] | b => b end) in *.
  set (pre := map (fun m => ILines (fst m) (at0 (map PCode (snd m)))) md ++ [ILines 0 (at0 [PClass]); IIndent]).
  set (def := optimize (ILines 0 (at0 [PExpose; PDef main_decl]) :: IIndent :: main)).
  assert (Eg : template_iter t = (pre ++ def) ++ (IDedent :: optimize (items others) ++ [IDedent; ILines 0 (at0 [PTemplate])])).
  { subst t. unfold template_iter. cbn [t_lineno mod_py defs]. unfold body_iter at 1. cbn [flat_map].
    change (iter (NDef 0 false main_decl body)) with ((ILines 0 (at0 [PExpose; PDef main_decl]) :: IIndent :: main) ++ [IDedent]).
    rewrite <- app_assoc. change ([IDedent] ++ items others) with (IDedent :: items others). rewrite optimize_cut. fold def. unfold pre. rewrite <- !app_assoc. reflexivity. }
  destruct (generate_app (pre ++ def) 0 (IDedent :: optimize (items others) ++ [IDedent; ILines 0 (at0 [PTemplate])])) as (n' & Ep). rewrite <- Eg in Ep.
  assert (Q : Forall (fun x : site => fst x <= 0 /\ snd x = None) (sites_of pre)).
  { unfold pre. rewrite sites_app. apply Forall_app. split; [|repeat constructor]. clear - M0. induction M0 as [|[n ls] l A M0 IH]; [constructor|]. cbn [fst] in A. subst n.
    cbn [map flat_map]. apply Forall_app. split; [apply quiet0|exact IH]. }
  assert (K : track 0 (sites_of (pre ++ def)) hi /\ code_sites (sites_of (pre ++ def)) = code_sites m).
  { assert (Fd : fits 0 def (sites_of main)).
    { unfold def. apply fits_optimize. apply (fits_after 0 main _ [ILines 0 (at0 [PExpose; PDef main_decl]); IIndent]); [|repeat constructor]. intros k h _ Tk. now split. }
    destruct (Fd 0 _ (le_n 0) B1) as [D1 D2]. rewrite sites_app, code_app. split.
    - eapply track_app; [apply track_quiet; exact Q|exact D1].
    - rewrite D2, B2. rewrite quiet_code; [reflexivity|]. eapply Forall_impl; [|exact Q]. cbn. tauto. }
  destruct K as [K1 K2]. rewrite <- (generate_sites (pre ++ def) 0) in K1, K2.
  destruct (reported_split _ (generate_from n' (IDedent :: optimize (items others) ++ [IDedent; ILines 0 (at0 [PTemplate])])) _ K1) as (rest & E1 & E2 & E3).
  exists rest. unfold generate_python. rewrite Ep, E1, K2. rewrite K2 in E2. split; [reflexivity|]. split; [exact E2|].
  intros Eo. apply E3. rewrite generate_sites. rewrite Eo. reflexivity.
Qed.

Lemma tree_main : forall f, exists others,
  defs (tree_template autoescape helper f) = NDef 0 false (L "__main__()") (tree_nodes autoescape helper false false 0 f) :: others /\
  (tree_defined autoescape helper false false 0 f = [] -> others = []).
Proof.
  intros f. unfold tree_template. cbn [defs]. set (ds := (L "__main__()", []) :: _).
  assert (E : last_def (L "__main__()") ds = tree_nodes autoescape helper false false 0 f).
  { unfold ds, last_def. cbn [fold_left fst snd]. rewrite fold_left_app. cbn [fold_left fst snd]. now rewrite seqb_refl. }
  exists (map (fun n => NDef 0 false n (last_def n ds)) (first_names [L "__main__()"] (tl ds))). split.
  - unfold ds at 2. cbn [first_names smem existsb map]. now rewrite E.
  - intros H. unfold ds at 2. rewrite H. reflexivity.
Qed.
Theorem text_lines : forall shlex_split compile source ts f, grammar compile None 1 source ts -> taken shlex_split f ts ->
  exists rest, reported_code (generate_python (tree_template autoescape helper f)) = map in_Z (shown_at f) ++ rest /\
    Forall (fun x : Z * str => Forall (fun y => (Z.of_nat (fst y) <= fst x)%Z) (shown_at f)) rest /\
    (tree_defined autoescape helper false false 0 f = [] -> rest = []).
Proof.
  intros shlex_split compile source ts f G T. destruct (takes_track _ _ _ _ _ _ T 1 (le_n 1) (grammar_chain _ _ _ _ _ G)) as (hi & _ & Tr & _).
  apply (track_lower _ _ _) with (m0 := 0) in Tr; [|lia]. destruct (tree_main f) as (others & Ed & Eo).
  destruct (template_lines (map (pair 0) (tree_module f)) _ others _ hi ltac:(induction (tree_module f); constructor; auto) (tree_fits f false 0) Tr) as (rest & R1 & R2 & R3).
  rewrite tree_shown in R1, R2. exists rest.
  assert (Et : tree_template autoescape helper f = TemplateNode 0 (map (pair 0) (tree_module f)) (NDef 0 false (L "__main__()") (tree_nodes autoescape helper false false 0 f) :: others)) by (rewrite <- Ed; reflexivity).
  rewrite Et. split; [exact R1|]. split; [exact R2|]. intros H. apply R3. now apply Eo.
Qed.
End Nodes.
Lemma no_defined : forall shlex_split st ts f e r, takes shlex_split st ts f e r -> Forall no_function ts -> forall autoescape helper ind ch k, tree_defined autoescape helper ind ch k f = [].
Proof.
  intros shlex_split st ts f e r T. induction T; intros F au he ind ch k;
    try (match goal with H : item_of_code _ _ |- _ => destruct H end); cbn [tree_defined];
    try (apply Forall_cons_iff in F as [N0 F]); try reflexivity; auto;
    try (exfalso; cbn [no_function] in N0; now destruct N0).
  all: pose proof (takes_expressions shlex_split _ _ _ _ _ T1 F) as [_ B1]; cbn [opt_list] in B1; rewrite ?IHT1, ?IHT2; try reflexivity; try assumption;
    try (apply Forall_app in B1; tauto).
Qed.
