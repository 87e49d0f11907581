(** * Text templates: properly nested blocks are parsed to themselves *)

From Coq Require Import Ascii String List Arith NArith ZArith Bool Lia.
From Verif Require Import PyStr PyStrLemmas Regex M_NameGen M_IR M_Text S_Text P_Text4.
Import ListNotations.
Open Scope list_scope.

(** Line continuations. *)
Lemma unescape_spec : forall s t, unescape_newlines s = Ok t <-> unescaped s t.
Proof.
  assert (Ind : forall n s, length s <= n -> forall t, unescape_newlines s = Ok t <-> unescaped s t).
  { induction n as [|n IH]; intros s Hn t.
    - destruct s; [|cbn in Hn; lia]. cbn. split; [intros H; injection H as <-; constructor|inversion 1; reflexivity].
    - destruct s as [|c s]; [cbn; split; [intros H; injection H as <-; constructor|inversion 1; reflexivity]|].
      cbn [length] in Hn. cbn [unescape_newlines]. destruct (N.eqb_spec c c_bsl) as [->|Nc].
      + destruct s as [|d s]; [split; [discriminate|inversion 1; congruence]|].
        cbn [length] in Hn. assert (Hs : length s <= n) by lia. specialize (IH s Hs).
        destruct (N.eqb_spec d c_nl) as [->|Nd]; split.
        * intros H. apply u_newline. apply IH. destruct (unescape_newlines s); cbn in H; congruence.
        * intros H. inversion H as [|? ? ? X| |]; subst; try congruence.
          match goal with h : unescaped s t |- _ => apply IH in h; now rewrite h end.
        * intros H. destruct (unescape_newlines s) as [t'|] eqn:E; cbn in H; [|discriminate].
          assert (t = d :: t') by congruence. subst t. apply u_other; [exact Nd|]. now apply IH.
        * intros H. inversion H as [|? ? ? X| |]; subst; try congruence.
          match goal with h : unescaped s _ |- _ => apply IH in h; rewrite h end. reflexivity.
      + assert (Hs : length s <= n) by lia. specialize (IH s Hs). split.
        * intros H. destruct (unescape_newlines s) as [t'|] eqn:E; cbn in H; [|discriminate].
          assert (t = c :: t') by congruence. subst t. apply u_char; [exact Nc|]. now apply IH.
        * intros H. inversion H; subst; try congruence.
          match goal with h : unescaped s _ |- _ => apply IH in h; rewrite h end. reflexivity. }
  intros s. now apply (Ind (length s)).
Qed.

(** Code of one line. *)
Lemma splitlines_one : forall s, s <> [] -> (forall c, In c s -> is_linebreak c = false) -> splitlines s = [s].
Proof.
  intros s Ne H. unfold splitlines.
  assert (G : forall s cur, (forall c, In c s -> is_linebreak c = false) -> rev cur ++ s <> [] ->
    splitlines_aux false cur s = [rev cur ++ s]).
  { clear. induction s as [|c s IH]; intros cur H Ne; cbn [splitlines_aux].
    - rewrite app_nil_r in *. destruct cur; [now contradiction Ne|reflexivity].
    - cbn [andb]. rewrite (H c) by now left. rewrite IH.
      + cbn [rev]. now rewrite <- app_assoc.
      + intros d Hd. apply H. now right.
      + cbn [rev]. rewrite <- app_assoc. now destruct (rev cur). }
  now apply (G s []).
Qed.
Lemma parent_line : forall name, (forall c, In c name -> is_linebreak c = false) ->
  mk_python 0 [L "parent_block=" ++ L "parent." ++ block_fname name] =
  Ok (NPython 0 [L "parent_block=parent._kj_block_" ++ name] false).
Proof.
  intros name H. unfold mk_python, normalize. cbn [concat]. rewrite app_nil_r.
  set (txt := L "parent_block=" ++ L "parent." ++ block_fname name).
  assert (E : txt = L "parent_block=parent._kj_block_" ++ name) by reflexivity. rewrite E. clear E txt.
  set (line := L "parent_block=parent._kj_block_" ++ name).
  assert (Sl : splitlines line = [line]).
  { apply splitlines_one; [discriminate|]. intros c Hc. apply in_app_or in Hc as [Hc|Hc]; [|now apply H].
    revert c Hc. apply Forall_forall. repeat constructor. }
  assert (P1 : prefixb (L "#" ++ [c_nl]) line = false) by reflexivity.
  assert (St : strip_prefix None [line] = Ok [line]).
  { unfold strip_prefix. assert (X : lstrip line = line) by reflexivity. rewrite X, Nat.sub_diag. reflexivity. }
  replace line with (N_of_ascii "p" :: skipn 1 line) at 1 by reflexivity.
  change (N.eqb (N_of_ascii "p") c_pct) with false. cbv iota. rewrite P1, Sl, St. reflexivity.
Qed.

(** ** Written forests *)

Scheme written_mut := Induction for written Sort Prop
  with written_cases_mut := Induction for written_cases Sort Prop.

Section Parser.
Variable autoescape : bool.
Variable shlex_split : str -> result (list str).
Variable helper : nat -> str.
Notation parse_body := (parse_body autoescape shlex_split helper).
Notation step := (step autoescape shlex_split helper).
Notation nodes := (nodes autoescape helper).
Notation case_nodes := (case_nodes autoescape helper).
Notation defined := (defined autoescape helper).
Notation case_defined := (case_defined autoescape helper).

(** With enough fuel. *)
Definition pb (st : list str) (s : pst) : presult := parse_body (S (size (p_toks s))) st s.
Lemma pb_step : forall st s, pb st s = step pb st s.
Proof.
  intros st s. unfold pb at 1. rewrite parse_step. apply step_same.
  - intros. apply parse_shrinks.
  - intros st' s' H. unfold pb. apply fuel_enough; lia.
  - intros st' s' H (ts & E). unfold pb.
    destruct (size (p_toks s)) eqn:Es; [lia|]. rewrite !parse_step. unfold P_Text4.step. now rewrite E.
Qed.

Definition openers : list str :=
  [L "for"; L "if"; L "switch"; L "def"; L "call"; L "block"; L "py"; L "extends"; L "import"; L "include"].
Definition allows (st : list str) (f : forest) : Prop :=
  Forall (fun o => smem o st = false) openers /\ (has_else f = true -> smem (L "else") st = false).

Definition pre (ons : list (option node)) (r : presult) : presult :=
  rmap (fun r => let '(ns, e, s) := r in (ons ++ ns, e, s)) r.
Definition assign (ofs : list (str * list (option node))) (funs : list (str * list (option node))) :=
  fold_left (fun l d => set_fun (fst d) (snd d) l) ofs funs.
Definition some_funs (ofs : list (str * list (option node))) := map (fun d => (fst d, somes (snd d))) ofs.

Definition parses_to (f : forest) (ts : list tok) : Prop :=
  else_apart f -> forall ind ch k, exists ons ofs,
  somes ons = nodes ind ch k f /\ some_funs ofs = defined ind ch k f /\
  forall st rest funs mods, allows st f ->
    pb st (Pst (ts ++ rest) funs mods ind ch k) =
    pre ons (pb st (Pst rest (assign ofs funs) (mods ++ map (pair 0) (module_code f)) ind (ch || extending f) (k + calls f))).
Definition cases_parse_to (c : cases) (ts : list tok) : Prop :=
  cases_apart c -> forall ind ch k, exists ons ofs,
  somes ons = case_nodes ind ch k c /\ some_funs ofs = case_defined ind ch k c /\
  forall l x rest funs mods,
    pb [L "end"] (Pst (ts ++ TTag l (L "end") x :: rest) funs mods ind ch k) =
    pre ons (pb [L "end"] (Pst (TTag l (L "end") x :: rest) (assign ofs funs)
                             (mods ++ map (pair 0) (case_module_code c)) ind (ch || cases_extending c) (k + case_calls c))).

Lemma pre_pre : forall a b r, pre a (pre b r) = pre (a ++ b) r.
Proof. intros a b [[[ns e] s]|]; [|reflexivity]. cbn. now rewrite app_assoc. Qed.
Lemma pre_nil : forall r, pre [] r = r.
Proof. intros [[[ns e] s]|]; reflexivity. Qed.
Lemma somes_app : forall {A} (a b : list (option A)), somes (a ++ b) = somes a ++ somes b.
Proof. intros. unfold somes. apply flat_map_app. Qed.
Lemma some_funs_app : forall a b, some_funs (a ++ b) = some_funs a ++ some_funs b.
Proof. intros. unfold some_funs. apply map_app. Qed.
Lemma assign_app : forall a b l, assign (a ++ b) l = assign b (assign a l).
Proof. intros. unfold assign. apply fold_left_app. Qed.

Lemma step_end : forall rec st l t x rest funs mods ind ch k, smem t st = true ->
  step rec st (Pst (TTag l t x :: rest) funs mods ind ch k) =
  Ok ([], Some (TTag l t x), Pst rest funs mods ind ch k).
Proof. intros. unfold P_Text4.step. cbn [p_toks with_toks p_funs p_mod p_in_def p_child p_calls]. now rewrite H. Qed.
Lemma pb_end : forall st l t x rest funs mods ind ch k, smem t st = true ->
  pb st (Pst (TTag l t x :: rest) funs mods ind ch k) =
  Ok ([], Some (TTag l t x), Pst rest funs mods ind ch k).
Proof. intros. rewrite pb_step. now apply step_end. Qed.

Lemma allows_tail : forall st f g, allows st f -> (has_else g = true -> has_else f = true) -> allows st g.
Proof. intros st f g [A B] H. split; [exact A|]. intros X. apply B. now apply H. Qed.
Lemma allows_end : forall f, allows [L "end"] f.
Proof. intros f. split; [repeat constructor|reflexivity]. Qed.
Lemma allows_top : forall f, allows [] f.
Proof. intros f. split; [repeat constructor|reflexivity]. Qed.
Lemma allows_if : forall f, has_else f = false -> allows [L "end"; L "else"] f.
Proof. intros f H. split; [repeat constructor|congruence]. Qed.
Lemma allows_case : forall f, has_else f = false -> allows [L "case"; L "else"; L "end"] f.
Proof. intros f H. split; [repeat constructor|congruence]. Qed.
Lemma opener : forall st f o, allows st f -> In o openers -> smem o st = false.
Proof. intros st f o [A _] H. rewrite Forall_forall in A. now apply A. Qed.

(** ** Steps *)

Ltac tags := repeat match goal with
  |- context [seqb (L ?a) (L ?b)] => let v := eval vm_compute in (seqb (L a) (L b)) in change (seqb (L a) (L b)) with v end;
  cbv iota.
Ltac one_step H := intros; unfold P_Text4.step; cbn [p_toks with_toks p_funs p_mod p_in_def p_child p_calls];
  rewrite H; tags.

Section Steps.
Variables (rec : list str -> pst -> presult) (st : list str) (l : nat) (ts : list tok)
  (funs : list (str * list (option node))) (mods : list (nat * list str)) (ind ch : bool) (k : nat).

Lemma st_text : forall raw t, unescaped raw t ->
  step rec st (Pst (TText l raw :: ts) funs mods ind ch k) =
  pre [Some (NText l t None)] (rec st (Pst ts funs mods ind ch k)).
Proof. intros raw t H. apply unescape_spec in H. unfold P_Text4.step. cbn [p_toks]. rewrite H. reflexivity. Qed.
Lemma st_expr : forall e,
  step rec st (Pst (TExpr l e :: ts) funs mods ind ch k) =
  pre [Some (NExpr l e (negb autoescape))] (rec st (Pst ts funs mods ind ch k)).
Proof. reflexivity. Qed.
Lemma st_for : forall e, smem (L "for") st = false ->
  step rec st (Pst (TTag l (L "for") e :: ts) funs mods ind ch k) =
  rbind (rec [L "end"] (Pst ts funs mods ind ch k)) (fun r => let '(ns, _, s') := r in
    pre [Some (NFor 0 e (somes ns))] (rec st s')).
Proof. intros e H. one_step H. destruct (rec [L "end"] _) as [[[ns en] s']|]; reflexivity. Qed.
Lemma st_switch : forall e, smem (L "switch") st = false ->
  step rec st (Pst (TTag l (L "switch") e :: ts) funs mods ind ch k) =
  rbind (rec [L "end"] (Pst ts funs mods ind ch k)) (fun r => let '(ns, _, s') := r in
    pre [Some (NSwitch 0 e (somes ns))] (rec st s')).
Proof. intros e H. one_step H. destruct (rec [L "end"] _) as [[[ns en] s']|]; reflexivity. Qed.
Lemma st_else : forall e, smem (L "else") st = false ->
  step rec st (Pst (TTag l (L "else") e :: ts) funs mods ind ch k) =
  rbind (rec [L "end"] (Pst ts funs mods ind ch k)) (fun r => let '(ns, _, s') := r in
    pre [Some (NElse 0 (somes ns))] (rec st s')).
Proof. intros e H. one_step H. destruct (rec [L "end"] _) as [[[ns en] s']|]; reflexivity. Qed.
Definition push (e : stop) (s : pst) : pst := with_toks s (match e with Some t => t | None => TNone end :: p_toks s).
Lemma st_if : forall e, smem (L "if") st = false ->
  step rec st (Pst (TTag l (L "if") e :: ts) funs mods ind ch k) =
  rbind (rec [L "end"; L "else"] (Pst ts funs mods ind ch k)) (fun r => let '(ns, en, s') := r in
    match en with
    | Some (TTag _ tg _) =>
        pre [Some (NIf 0 e (somes ns))] (rec st (if seqb tg (L "else") then push en s' else s'))
    | _ => Raise "AttributeError"
    end).
Proof.
  intros e H. one_step H. destruct (rec [L "end"; L "else"] _) as [[[ns en] s']|]; [|reflexivity].
  cbn [rbind]. destruct en as [[| | | |]|]; reflexivity.
Qed.
Lemma st_case : forall e, smem (L "case") st = false ->
  step rec st (Pst (TTag l (L "case") e :: ts) funs mods ind ch k) =
  rbind (rec [L "case"; L "else"; L "end"] (Pst ts funs mods ind ch k)) (fun r => let '(ns, en, s') := r in
    pre [Some (NCase 0 e (somes ns))] (rec st (push en s'))).
Proof. intros e H. one_step H. destruct (rec [L "case"; L "else"; L "end"] _) as [[[ns en] s']|]; reflexivity. Qed.
Lemma st_def : forall d, smem (L "def") st = false ->
  step rec st (Pst (TTag l (L "def") d :: ts) funs mods ind ch k) =
  rbind (rec [L "end"] (Pst ts funs mods true ch k)) (fun r => let '(ns, _, s') := r in
    pre [if ind then Some (NDef 0 true d (somes ns)) else None]
      (rec st (Pst (p_toks s') (if ind then p_funs s' else set_fun (strip d) ns (p_funs s')) (p_mod s') ind (p_child s') (p_calls s')))).
Proof. intros d H. one_step H. destruct (rec [L "end"] _) as [[[ns en] s']|]; [|reflexivity]. destruct ind; reflexivity. Qed.
Lemma st_call : forall u args call, ~ In c_lpar u -> ~ In c_rpar args -> smem (L "call") st = false ->
  step rec st (Pst (TTag l (L "call") (u ++ L "(" ++ args ++ L ")" ++ call) :: ts) funs mods ind ch k) =
  rbind (rec [L "end"] (Pst ts funs mods ind ch k)) (fun r => let '(ns, _, s') := r in
    pre [Some (mk_call 0 (helper (p_calls s')) (L "$caller(" ++ args ++ L ")")
                 (replace (L "%caller") (L "$caller") (strip call)) (somes ns))]
      (rec st (Pst (p_toks s') (p_funs s') (p_mod s') (p_in_def s') (p_child s') (S (p_calls s'))))).
Proof.
  intros u args call Nu Na H.
  assert (F1 : forall v w x, ~ In x v -> find [x] (v ++ [x] ++ w) = Some (length v)).
  { intros v w x Nv. apply find_is_first. intros a' b' E.
    destruct (Nat.lt_ge_cases (length a') (length v)) as [Lt|]; [|assumption]. exfalso.
    assert (X : nth_error (v ++ [x] ++ w) (length a') = Some x).
    { rewrite E, nth_error_app2 by lia. now rewrite Nat.sub_diag. }
    rewrite nth_error_app1 in X by exact Lt. apply Nv. eapply nth_error_In; eassumption. }
  one_step H. unfold find_from. cbn [skipn].
  change (L "(") with [c_lpar]. change (L ")") with [c_rpar].
  rewrite (F1 u (args ++ [c_rpar] ++ call) c_lpar Nu). cbn [option_map plus].
  assert (S1 : forall (a b : str), skipn (length a) (a ++ b) = b) by (intros; now rewrite skipn_app, skipn_all, Nat.sub_diag).
  rewrite S1. replace ([c_lpar] ++ args ++ [c_rpar] ++ call) with (([c_lpar] ++ args) ++ [c_rpar] ++ call) by (now rewrite <- app_assoc).
  rewrite (F1 ([c_lpar] ++ args) call c_rpar) by (intros [X|X]; [discriminate|contradiction]). cbn [option_map].
  assert (E1 : u ++ ([c_lpar] ++ args) ++ [c_rpar] ++ call = (u ++ ([c_lpar] ++ args) ++ [c_rpar]) ++ call) by (now rewrite <- !app_assoc).
  assert (E2 : skipn (length u + length ([c_lpar] ++ args) + 1) (u ++ ([c_lpar] ++ args) ++ [c_rpar] ++ call) = call).
  { rewrite E1. replace (length u + length ([c_lpar] ++ args) + 1) with (length (u ++ ([c_lpar] ++ args) ++ [c_rpar]))
      by (rewrite !app_length; cbn [length]; lia). apply S1. }
  rewrite E2.
  assert (E3 : slice (length u) (length u + length ([c_lpar] ++ args) + 1) (u ++ ([c_lpar] ++ args) ++ [c_rpar] ++ call) = ([c_lpar] ++ args) ++ [c_rpar]).
  { unfold slice. rewrite S1. rewrite app_assoc.
    replace (length u + length ([c_lpar] ++ args) + 1 - length u) with (length (([c_lpar] ++ args) ++ [c_rpar])) by (rewrite !app_length; cbn [length]; lia).
    now rewrite firstn_app, Nat.sub_diag, firstn_all, app_nil_r. }
  rewrite E3.
  assert (E4 : L "$caller" ++ ([c_lpar] ++ args) ++ [c_rpar] = L "$caller(" ++ args ++ [c_rpar]) by (now rewrite <- app_assoc).
  rewrite E4. destruct (rec [L "end"] _) as [[[ns en] s']|]; reflexivity.
Qed.
Lemma st_block : forall name, (forall c, In c (strip name) -> is_linebreak c = false) -> smem (L "block") st = false ->
  step rec st (Pst (TTag l (L "block") name :: ts) funs mods ind ch k) =
  rbind (rec [L "end"] (Pst ts funs mods ind ch k)) (fun r => let '(ns, _, s') := r in
    pre [if p_child s' then None else Some (NExpr 0 (L "_kj_block_" ++ strip name ++ L "()") false)]
      (rec st (Pst (p_toks s')
        (set_fun (L "_kj_block_" ++ strip name ++ L "()")
          (if p_child s' then Some (NPython 0 [L "parent_block=parent._kj_block_" ++ strip name] false) :: ns else ns) (p_funs s'))
        (p_mod s') (p_in_def s') (p_child s') (p_calls s')))).
Proof.
  intros name Nb H. one_step H. rewrite (parent_line _ Nb).
  destruct (rec [L "end"] _) as [[[ns en] s']|]; [|reflexivity]. cbn [rbind]. destruct (p_child s'); reflexivity.
Qed.
Lemma st_py : forall code ls m, strip code <> [] -> mk_python 0 [strip code] = Ok (NPython 0 ls m) -> smem (L "py") st = false ->
  step rec st (Pst (TTag l (L "py") code :: ts) funs mods ind ch k) =
  pre [if m then None else Some (NPython 0 ls false)]
    (rec st (Pst ts funs (if m then mods ++ [(0, ls)] else mods) ind ch k)).
Proof.
  intros code ls m Ne E H. one_step H. destruct (strip code) as [|c0 cs]; [congruence|].
  unfold python_of. cbn [texts_of rmap rbind]. rewrite E. cbn [rbind]. destruct m; reflexivity.
Qed.
Lemma st_py_block : forall z, strip z = [] -> smem (L "py") st = false ->
  step rec st (Pst (TTag l (L "py") z :: ts) funs mods ind ch k) =
  rbind (rec [L "end"] (Pst ts funs mods ind ch k)) (fun r => let '(ns, _, s') := r in
    rbind (python_of ns) (fun n =>
      match n with
      | NPython ln ls true => pre [None] (rec st (Pst (p_toks s') (p_funs s') (p_mod s' ++ [(ln, ls)]) (p_in_def s') (p_child s') (p_calls s')))
      | _ => pre [Some n] (rec st s')
      end)).
Proof.
  intros z E H. one_step H. rewrite E. destruct (rec [L "end"] _) as [[[ns en] s']|]; [|reflexivity].
  cbn [rbind]. destruct (python_of ns) as [n|]; [|reflexivity]. cbn [rbind]. destruct n; try reflexivity. destruct module_level; reflexivity.
Qed.
Lemma st_extends : forall x fn, shlex_split x = Ok [fn] -> smem (L "extends") st = false ->
  step rec st (Pst (TTag l (L "extends") x :: ts) funs mods ind ch k) =
  pre [Some (NExtend 0 fn)] (rec st (Pst ts funs mods ind true k)).
Proof. intros x fn E H. one_step H. rewrite E. reflexivity. Qed.
Lemma st_import : forall x fn, shlex_split x = Ok [fn] -> smem (L "import") st = false ->
  step rec st (Pst (TTag l (L "import") x :: ts) funs mods ind ch k) =
  pre [Some (NImport 0 fn None)] (rec st (Pst ts funs mods ind ch k)).
Proof. intros x fn E H. one_step H. rewrite E. reflexivity. Qed.
Lemma st_import_as : forall x fn alias more, shlex_split x = Ok (fn :: L "as" :: alias :: more) -> smem (L "import") st = false ->
  step rec st (Pst (TTag l (L "import") x :: ts) funs mods ind ch k) =
  pre [Some (NImport 0 fn (Some alias))] (rec st (Pst ts funs mods ind ch k)).
Proof. intros x fn alias more E H. one_step H. rewrite E. cbn [rbind]. tags. reflexivity. Qed.
Lemma st_include : forall x fn, shlex_split x = Ok [fn] -> smem (L "include") st = false ->
  step rec st (Pst (TTag l (L "include") x :: ts) funs mods ind ch k) =
  pre [Some (NInclude 0 fn)] (rec st (Pst ts funs mods ind ch k)).
Proof. intros x fn E H. one_step H. rewrite E. reflexivity. Qed.
End Steps.

(** ** The parser on written forests *)

Ltac state_eq := rewrite ?assign_app, ?map_app, <- ?app_assoc, ?orb_assoc, ?Nat.add_assoc; reflexivity.
Ltac enter A := intros st rest funs mods A; cbn [app]; rewrite pb_step.
Ltac tail A H := rewrite H by (eapply allows_tail; [exact A|cbn [has_else]; tauto || (intros; reflexivity)]); rewrite ?pre_pre; cbn [app].

Lemma texts_body : forall raws texts,
  Forall2 (fun raw t => unescaped (snd raw) t) raws texts -> forall l x rest funs mods ind ch k, exists ns,
  pb [L "end"] (Pst (map (fun r : nat * str => TText (fst r) (snd r)) raws ++ TTag l (L "end") x :: rest) funs mods ind ch k) =
    Ok (ns, Some (TTag l (L "end") x), Pst rest funs mods ind ch k) /\ texts_of ns = Ok texts.
Proof.
  intros raws texts H l x rest funs mods ind ch k. induction H as [|[ln raw] t raws texts U H (ns & P & T)].
  - exists []. cbn [map app]. rewrite pb_end by reflexivity. now split.
  - exists (Some (NText ln t None) :: ns). cbn [map app fst snd] in *. rewrite pb_step, (st_text pb _ _ _ _ _ _ _ _ raw t U).
    rewrite P. split; [reflexivity|]. cbn [texts_of]. now rewrite T.
Qed.

Lemma all_parse : forall f ts, written shlex_split f ts -> parses_to f ts.
Proof.
  apply (written_mut shlex_split (fun f ts _ => parses_to f ts) (fun c ts _ => cases_parse_to c ts)).
  - (* nil *) intros _ ind ch k. exists [], []. split; [reflexivity|]. split; [reflexivity|].
    intros st rest funs mods _. cbn [app]. rewrite pre_nil. cbn [assign fold_left module_code map extending calls].
    now rewrite app_nil_r, orb_false_r, Nat.add_0_r.
  - (* text *) intros ln raw t f ts U _ IH EA ind ch k. destruct (IH EA ind ch k) as (ons & ofs & H1 & H2 & P).
    exists (Some (NText ln t None) :: ons), ofs. split; [cbn; now rewrite <- H1|]. split; [exact H2|].
    enter A. rewrite (st_text pb _ _ _ _ _ _ _ _ raw t U). tail A P. reflexivity.
  - (* expr *) intros ln e f ts _ IH EA ind ch k. destruct (IH EA ind ch k) as (ons & ofs & H1 & H2 & P).
    exists (Some (NExpr ln e (negb autoescape)) :: ons), ofs. split; [cbn; now rewrite <- H1|]. split; [exact H2|].
    enter A. rewrite st_expr. tail A P. reflexivity.
  - (* for *) intros l e b bs l' x f ts _ IHb _ IHf [Eb Ef] ind ch k.
    destruct (IHb Eb ind ch k) as (ob & fb & B1 & B2 & B3).
    destruct (IHf Ef ind (ch || extending b) (k + calls b)) as (ons & ofs & H1 & H2 & P).
    exists (Some (NFor 0 e (somes ob)) :: ons), (fb ++ ofs).
    split; [cbn [somes flat_map app]; cbn; now rewrite B1, <- H1|].
    split; [cbn [S_Text.defined]; now rewrite some_funs_app, B2, H2|].
    enter A. rewrite st_for by (apply (opener _ _ _ A); cbn; tauto). rewrite <- app_assoc. cbn [app].
    rewrite B3 by apply allows_end. rewrite pb_end by reflexivity. cbn [pre rmap rbind]. rewrite app_nil_r.
    tail A P. cbn [module_code extending calls]. state_eq.
  - (* if *) intros l e b bs l' x f ts _ IHb _ IHf (En & Eb & Ef) ind ch k.
    destruct (IHb Eb ind ch k) as (ob & fb & B1 & B2 & B3).
    destruct (IHf Ef ind (ch || extending b) (k + calls b)) as (ons & ofs & H1 & H2 & P).
    exists (Some (NIf 0 e (somes ob)) :: ons), (fb ++ ofs).
    split; [cbn; now rewrite B1, <- H1|].
    split; [cbn [S_Text.defined]; now rewrite some_funs_app, B2, H2|].
    enter A. rewrite st_if by (apply (opener _ _ _ A); cbn; tauto). rewrite <- app_assoc. cbn [app].
    rewrite B3 by now apply allows_if. rewrite pb_end by reflexivity. cbn [pre rmap rbind]. rewrite app_nil_r. tags.
    tail A P. cbn [module_code extending calls]. state_eq.
  - (* if else *) intros l e b bs l' x a xs l'' y f ts _ IHb _ IHa _ IHf (En & Eb & Ea & Ef) ind ch k.
    destruct (IHb Eb ind ch k) as (ob & fb & B1 & B2 & B3).
    destruct (IHa Ea ind (ch || extending b) (k + calls b)) as (oa & fa & A1 & A2 & A3).
    destruct (IHf Ef ind (ch || extending b || extending a) (k + calls b + calls a)) as (ons & ofs & H1 & H2 & P).
    exists (Some (NIf 0 e (somes ob)) :: Some (NElse 0 (somes oa)) :: ons), (fb ++ fa ++ ofs).
    split; [cbn; now rewrite B1, A1, <- H1|].
    split; [cbn [S_Text.defined]; now rewrite !some_funs_app, B2, A2, H2|].
    enter A. rewrite st_if by (apply (opener _ _ _ A); cbn; tauto). rewrite <- app_assoc. cbn [app]. rewrite <- app_assoc. cbn [app].
    rewrite B3 by now apply allows_if. rewrite pb_end by reflexivity. cbn [pre rmap rbind]. rewrite app_nil_r. tags.
    unfold push, with_toks. cbn [p_toks p_funs p_mod p_in_def p_child p_calls].
    rewrite (pb_step st), st_else by (apply (proj2 A); reflexivity).
    rewrite A3 by apply allows_end. rewrite pb_end by reflexivity. cbn [pre rmap rbind]. rewrite app_nil_r.
    tail A P. cbn [module_code extending calls]. state_eq.
  - (* switch *) intros l e b bs c cs l' x f ts _ IHb _ IHc _ IHf (Eb & Ec & Ef) ind ch k.
    destruct (IHb Eb ind ch k) as (ob & fb & B1 & B2 & B3).
    destruct (IHc Ec ind (ch || extending b) (k + calls b)) as (oc & fc & C1 & C2 & C3).
    destruct (IHf Ef ind (ch || extending b || cases_extending c) (k + calls b + case_calls c)) as (ons & ofs & H1 & H2 & P).
    exists (Some (NSwitch 0 e (somes (ob ++ oc))) :: ons), (fb ++ fc ++ ofs).
    split; [cbn [somes flat_map app S_Text.nodes]; fold (somes ons); now rewrite somes_app, B1, C1, H1|].
    split; [cbn [S_Text.defined]; now rewrite !some_funs_app, B2, C2, H2|].
    enter A. rewrite st_switch by (apply (opener _ _ _ A); cbn; tauto). rewrite <- !app_assoc. cbn [app].
    rewrite B3 by apply allows_end. rewrite C3. rewrite pb_end by reflexivity. cbn [pre rmap rbind]. rewrite app_nil_r.
    tail A P. cbn [module_code extending calls]. state_eq.
  - (* def *) intros l d b bs l' x f ts _ IHb _ IHf [Eb Ef] ind ch k.
    destruct (IHb Eb true ch k) as (ob & fb & B1 & B2 & B3).
    destruct (IHf Ef ind (ch || extending b) (k + calls b)) as (ons & ofs & H1 & H2 & P).
    exists ((if ind then Some (NDef 0 true d (somes ob)) else None) :: ons), (fb ++ (if ind then [] else [(strip d, ob)]) ++ ofs).
    split; [destruct ind; cbn; now rewrite ?B1, <- H1|].
    split; [cbn [S_Text.defined]; rewrite !some_funs_app, B2, H2; destruct ind; cbn [some_funs map fst snd app]; now rewrite ?B1|].
    enter A. rewrite st_def by (apply (opener _ _ _ A); cbn; tauto). rewrite <- app_assoc. cbn [app].
    rewrite B3 by apply allows_end. rewrite pb_end by reflexivity. cbn [pre rmap rbind]. rewrite app_nil_r.
    cbn [with_toks p_toks p_funs p_mod p_in_def p_child p_calls].
    tail A P. cbn [module_code extending calls]. destruct ind; state_eq.
  - (* call *) intros l u args call b bs l' x f ts Nu Na _ IHb _ IHf [Eb Ef] ind ch k.
    destruct (IHb Eb ind ch k) as (ob & fb & B1 & B2 & B3).
    destruct (IHf Ef ind (ch || extending b) (k + calls b + 1)) as (ons & ofs & H1 & H2 & P).
    exists (Some (mk_call 0 (helper (k + calls b)) (L "$caller(" ++ args ++ L ")")
                 (replace (L "%caller") (L "$caller") (strip call)) (somes ob)) :: ons), (fb ++ ofs).
    split; [cbn [somes flat_map app S_Text.nodes]; fold (somes ons); now rewrite B1, H1|].
    split; [cbn [S_Text.defined]; now rewrite some_funs_app, B2, H2|].
    enter A. rewrite st_call by (assumption || (apply (opener _ _ _ A); cbn; tauto)). rewrite <- app_assoc. cbn [app].
    rewrite B3 by apply allows_end. rewrite pb_end by reflexivity. cbn [pre rmap rbind]. rewrite app_nil_r.
    cbn [with_toks p_toks p_funs p_mod p_in_def p_child p_calls].
    replace (S (k + calls b)) with (k + calls b + 1) by lia.
    tail A P. cbn [module_code extending calls]. state_eq.
  - (* block *) intros l name b bs l' x f ts Nb _ IHb _ IHf [Eb Ef] ind ch k.
    destruct (IHb Eb ind ch k) as (ob & fb & B1 & B2 & B3).
    destruct (IHf Ef ind (ch || extending b) (k + calls b)) as (ons & ofs & H1 & H2 & P).
    exists ((if ch || extending b then None else Some (NExpr 0 (L "_kj_block_" ++ strip name ++ L "()") false)) :: ons),
      (fb ++ [(L "_kj_block_" ++ strip name ++ L "()",
          (if ch || extending b then Some (NPython 0 [L "parent_block=parent._kj_block_" ++ strip name] false) :: ob else ob))] ++ ofs).
    split; [cbn [S_Text.nodes]; destruct (ch || extending b); cbn [somes flat_map app]; fold (somes ons); now rewrite H1|].
    split; [cbn [S_Text.defined]; rewrite !some_funs_app, B2, H2; cbn [some_funs map fst snd];
            destruct (ch || extending b); cbn [somes flat_map app]; fold (somes ob); now rewrite B1|].
    enter A. rewrite st_block by (assumption || (apply (opener _ _ _ A); cbn; tauto)). rewrite <- app_assoc. cbn [app].
    rewrite B3 by apply allows_end. rewrite pb_end by reflexivity. cbn [pre rmap rbind]. rewrite app_nil_r.
    cbn [with_toks p_toks p_funs p_mod p_in_def p_child p_calls].
    tail A P. cbn [module_code extending calls]. state_eq.
  - (* py *) intros l code ls f ts Ne E _ IH EA ind ch k. destruct (IH EA ind ch k) as (ons & ofs & H1 & H2 & P).
    exists (Some (NPython 0 ls false) :: ons), ofs. split; [cbn; now rewrite <- H1|]. split; [exact H2|].
    enter A. rewrite (st_py pb _ _ _ _ _ _ _ _ code ls false) by (assumption || (apply (opener _ _ _ A); cbn; tauto)).
    cbv iota. tail A P. reflexivity.
  - (* module *) intros l code ls f ts Ne E _ IH EA ind ch k. destruct (IH EA ind ch k) as (ons & ofs & H1 & H2 & P).
    exists (None :: ons), ofs. split; [exact H1|]. split; [exact H2|].
    enter A. rewrite (st_py pb _ _ _ _ _ _ _ _ code ls true) by (assumption || (apply (opener _ _ _ A); cbn; tauto)).
    cbv iota. tail A P. cbn [module_code map extending calls]. now rewrite <- app_assoc.
  - (* py block *) intros l z raws texts ls l' x f ts Ez Fr E _ IH EA ind ch k. destruct (IH EA ind ch k) as (ons & ofs & H1 & H2 & P).
    exists (Some (NPython 0 ls false) :: ons), ofs. split; [cbn; now rewrite <- H1|]. split; [exact H2|].
    enter A. rewrite st_py_block by (assumption || (apply (opener _ _ _ A); cbn; tauto)). rewrite <- app_assoc. cbn [app].
    destruct (texts_body raws texts Fr l' x (ts ++ rest) funs mods ind ch k) as (ns & Pn & Tn). rewrite Pn. cbn [rbind].
    unfold python_of. rewrite Tn. cbn [rbind]. rewrite E. cbn [rbind]. tail A P. reflexivity.
  - (* module block *) intros l z raws texts ls l' x f ts Ez Fr E _ IH EA ind ch k. destruct (IH EA ind ch k) as (ons & ofs & H1 & H2 & P).
    exists (None :: ons), ofs. split; [exact H1|]. split; [exact H2|].
    enter A. rewrite st_py_block by (assumption || (apply (opener _ _ _ A); cbn; tauto)). rewrite <- app_assoc. cbn [app].
    destruct (texts_body raws texts Fr l' x (ts ++ rest) funs mods ind ch k) as (ns & Pn & Tn). rewrite Pn. cbn [rbind].
    unfold python_of. rewrite Tn. cbn [rbind]. rewrite E. cbn [rbind p_toks p_funs p_mod p_in_def p_child p_calls].
    tail A P. cbn [module_code map extending calls]. now rewrite <- app_assoc.
  - (* extends *) intros l x fn f ts E _ IH EA ind ch k. destruct (IH EA ind true k) as (ons & ofs & H1 & H2 & P).
    exists (Some (NExtend 0 fn) :: ons), ofs. split; [cbn; now rewrite <- H1|]. split; [exact H2|].
    enter A. rewrite (st_extends pb _ _ _ _ _ _ _ _ x fn) by (assumption || (apply (opener _ _ _ A); cbn; tauto)).
    tail A P. cbn [module_code extending calls]. now rewrite orb_true_r, orb_true_l.
  - (* import *) intros l x fn f ts E _ IH EA ind ch k. destruct (IH EA ind ch k) as (ons & ofs & H1 & H2 & P).
    exists (Some (NImport 0 fn None) :: ons), ofs. split; [cbn; now rewrite <- H1|]. split; [exact H2|].
    enter A. rewrite (st_import pb _ _ _ _ _ _ _ _ x fn) by (assumption || (apply (opener _ _ _ A); cbn; tauto)).
    tail A P. reflexivity.
  - (* import as *) intros l x fn alias more f ts E _ IH EA ind ch k. destruct (IH EA ind ch k) as (ons & ofs & H1 & H2 & P).
    exists (Some (NImport 0 fn (Some alias)) :: ons), ofs. split; [cbn; now rewrite <- H1|]. split; [exact H2|].
    enter A. rewrite (st_import_as pb _ _ _ _ _ _ _ _ x fn alias more) by (assumption || (apply (opener _ _ _ A); cbn; tauto)).
    tail A P. reflexivity.
  - (* include *) intros l x fn f ts E _ IH EA ind ch k. destruct (IH EA ind ch k) as (ons & ofs & H1 & H2 & P).
    exists (Some (NInclude 0 fn) :: ons), ofs. split; [cbn; now rewrite <- H1|]. split; [exact H2|].
    enter A. rewrite (st_include pb _ _ _ _ _ _ _ _ x fn) by (assumption || (apply (opener _ _ _ A); cbn; tauto)).
    tail A P. reflexivity.
  - (* no case *) intros _ ind ch k. exists [], []. split; [reflexivity|]. split; [reflexivity|].
    intros l x rest funs mods. cbn [app]. rewrite pre_nil. cbn [assign fold_left case_module_code map cases_extending case_calls].
    now rewrite app_nil_r, orb_false_r, Nat.add_0_r.
  - (* else *) intros l x b bs _ _ [].
  - (* case *) intros l e b bs c cs _ IHb Wc IHc (En & Eb & Ec) ind ch k.
    destruct (IHb Eb ind ch k) as (ob & fb & B1 & B2 & B3).
    destruct (IHc Ec ind (ch || extending b) (k + calls b)) as (oc & fc & C1 & C2 & C3).
    exists (Some (NCase 0 e (somes ob)) :: oc), (fb ++ fc).
    split; [cbn; now rewrite B1, <- C1|].
    split; [cbn [S_Text.case_defined]; now rewrite some_funs_app, B2, C2|].
    intros l' x rest funs mods. cbn [app]. rewrite pb_step, st_case by reflexivity. rewrite <- app_assoc. rewrite B3 by now apply allows_case.
    assert (Hd : exists l0 t0 x0 ts0, cs ++ TTag l' (L "end") x :: rest = TTag l0 t0 x0 :: ts0 /\
                 smem t0 [L "case"; L "else"; L "end"] = true).
    { inversion Wc; subst; eexists _, _, _, _; (split; [reflexivity|reflexivity]). }
    destruct Hd as (l0 & t0 & x0 & ts0 & E0 & M0). rewrite E0. rewrite pb_end by exact M0. cbn [pre rmap rbind].
    rewrite app_nil_r. unfold push, with_toks. cbn [p_toks p_funs p_mod p_in_def p_child p_calls]. rewrite <- E0.
    rewrite C3. rewrite pre_pre. cbn [app]. cbn [case_module_code cases_extending case_calls]. state_eq.
Qed.
End Parser.
