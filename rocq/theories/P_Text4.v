(** * Text templates: the parser's steps *)

From Coq Require Import Ascii String List Arith NArith ZArith Bool Lia.
From Verif Require Import PyStr PyStrLemmas Regex M_NameGen M_IR M_Text S_Text.
Import ListNotations.
Open Scope list_scope.

Section Parser.
Variable autoescape : bool.
Variable shlex_split : str -> result (list str).
Variable helper : nat -> str.
Notation parse_body := (parse_body autoescape shlex_split helper).

Definition presult : Type := result (list (option node) * stop * pst).

(** One round of [_parse_body], the recursive calls being [rec]. *)
Definition step (rec : list str -> pst -> presult) (stoptags : list str) (s : pst) : presult :=
    (* yield a node and go on *)
    let continue_with (n : option node) (s : pst) :=
      rmap (fun r => let '(ns, e, s') := r in (n :: ns, e, s')) (rec stoptags s) in
    let yielding (r : result (option node * pst)) := rbind r (fun p => continue_with (fst p) (snd p)) in
    (* a body that ends with one of these tags *)
    let body (tags : list str) (s : pst) (k : list (option node) -> stop -> pst -> result (option node * pst)) :=
      rbind (rec tags s) (fun r => let '(ns, e, s') := r in k ns e s') in
    let push_tok (e : stop) (s : pst) :=                                      (* 197-198 *)
      with_toks s (match e with Some t => t | None => TNone end :: p_toks s) in
    match p_toks s with
    | [] => Ok ([], None, s)
    | TRaise e :: _ => Raise e
    | TNone :: _ => Raise "AssertionError"
    | TText ln t :: ts =>                                                     (* 184-189 *)
        rbind (unescape_newlines t) (fun t' => continue_with (Some (NText ln t' None)) (with_toks s ts))
    | TExpr ln t :: ts =>                                                     (* 191-195 *)
        continue_with (Some (NExpr ln t (negb autoescape))) (with_toks s ts)
    | (TTag ln tag tbody) as token :: ts =>
        let s := with_toks s ts in
        if smem tag stoptags then Ok ([], Some token, s)
        else yielding (
          if seqb tag (L "def") then                                          (* 221-229 *)
            body [L "end"] (Pst ts (p_funs s) (p_mod s) true (p_child s) (p_calls s)) (fun ns _ s' =>
              let s' := Pst (p_toks s') (p_funs s') (p_mod s') (p_in_def s) (p_child s') (p_calls s') in
              if p_in_def s then Ok (Some (NDef 0 true tbody (somes ns)), s')
              else Ok (None, Pst (p_toks s') (set_fun (strip tbody) ns (p_funs s')) (p_mod s')
                               (p_in_def s') (p_child s') (p_calls s')))
          else if seqb tag (L "call") then                                    (* 231-241 *)
            match find_from (L "(") tbody 0 with
            | None => Raise "AssertionError"
            | Some b =>
                match find_from (L ")") tbody b with
                | None => Raise "AssertionError"
                | Some e =>
                    let arglist := slice b (e + 1) tbody in
                    let call := strip (skipn (e + 1) tbody) in
                    body [L "end"] s (fun ns _ s' =>
                      Ok (Some (mk_call 0 (helper (p_calls s')) (L "$caller" ++ arglist)
                                  (replace (L "%caller") (L "$caller") call) (somes ns)),
                          Pst (p_toks s') (p_funs s') (p_mod s') (p_in_def s') (p_child s') (S (p_calls s'))))
                end
            end
          else if seqb tag (L "if") then                                      (* 243-248 *)
            body [L "end"; L "else"] s (fun ns e s' =>
              match e with
              | Some (TTag _ tg _) =>
                  Ok (Some (NIf 0 tbody (somes ns)), if seqb tg (L "else") then push_tok e s' else s')
              | _ => Raise "AttributeError"
              end)
          else if seqb tag (L "for") then                                     (* 250-252 *)
            body [L "end"] s (fun ns _ s' => Ok (Some (NFor 0 tbody (somes ns)), s'))
          else if seqb tag (L "switch") then                                  (* 254-256 *)
            body [L "end"] s (fun ns _ s' => Ok (Some (NSwitch 0 tbody (somes ns)), s'))
          else if seqb tag (L "case") then                                    (* 258-262 *)
            body [L "case"; L "else"; L "end"] s (fun ns e s' =>
              Ok (Some (NCase 0 tbody (somes ns)), push_tok e s'))
          else if seqb tag (L "else") then                                    (* 264-266 *)
            body [L "end"] s (fun ns _ s' => Ok (Some (NElse 0 (somes ns)), s'))
          else if seqb tag (L "extends") then                                 (* 268-273 *)
            rbind (shlex_split tbody) (fun parts =>
              match parts with
              | [] => Raise "IndexError"
              | [fn] => Ok (Some (NExtend 0 fn),
                            Pst (p_toks s) (p_funs s) (p_mod s) (p_in_def s) true (p_calls s))
              | _ => Raise "AssertionError"
              end)
          else if seqb tag (L "import") then                                  (* 275-282 *)
            rbind (shlex_split tbody) (fun parts =>
              match parts with
              | [] => Raise "IndexError"
              | [fn] => Ok (Some (NImport 0 fn None), s)
              | fn :: as_ :: more =>
                  if seqb as_ (L "as") then
                    match more with
                    | [] => Raise "IndexError"
                    | alias :: _ => Ok (Some (NImport 0 fn (Some alias)), s)
                    end
                  else Raise "AssertionError"
              end)
          else if seqb tag (L "include") then                                 (* 284-288 *)
            rbind (shlex_split tbody) (fun parts =>
              match parts with
              | [] => Raise "IndexError"
              | [fn] => Ok (Some (NInclude 0 fn), s)
              | _ => Raise "AssertionError"
              end)
          else if seqb tag (L "py") then                                      (* 290-301 *)
            let finish (ns : list (option node)) (s' : pst) :=
              rbind (python_of ns) (fun n =>
                match n with
                | NPython ln ls true =>
                    Ok (None, Pst (p_toks s') (p_funs s') (p_mod s' ++ [(ln, ls)]) (p_in_def s') (p_child s') (p_calls s'))
                | _ => Ok (Some n, s')
                end) in
            match strip tbody with
            | [] => body [L "end"] s (fun ns _ s' => finish ns s')
            | code => finish [Some (NText 0 code None)] s
            end
          else if seqb tag (L "block") then                                   (* 303-314 *)
            let fname := block_fname (strip tbody) in
            let decl := fname ++ L "()" in
            body [L "end"] s (fun ns _ s' =>
              let register ns := Pst (p_toks s') (set_fun decl ns (p_funs s')) (p_mod s')
                                   (p_in_def s') (p_child s') (p_calls s') in
              if p_child s' then
                rmap (fun n => (None, register (Some n :: ns)))
                     (mk_python 0 [L "parent_block=" ++ L "parent." ++ fname])
              else Ok (Some (NExpr 0 decl false), register ns))
          else if seqb tag (L "body") then
            (* [_parse_body] itself is found: a generator over what is then the end of the tokens, no node *)
            Ok (None, s)
          else Raise "AttributeError")
    end.

Lemma parse_step : forall f st s, parse_body (S f) st s = step (parse_body f) st s.
Proof. reflexivity. Qed.

(** Tokens that count. *)
Definition counts (t : tok) : bool := match t with TNone => false | _ => true end.
Definition size (ts : list tok) : nat := length (filter counts ts).

(** A parse never adds tokens, and a stop tag has been taken from them. *)
Definition shrinks (s : pst) (r : presult) : Prop :=
  match r with
  | Ok (_, e, s') => size (p_toks s') + (match e with Some _ => 1 | None => 0 end) <= size (p_toks s)
                     /\ (match e with Some t => counts t = true | None => True end)
  | Raise _ => True
  end.

Lemma step_shrinks : forall rec st s,
  (forall st s, shrinks s (rec st s)) -> shrinks s (step rec st s).
Proof.
  intros rec st s K. unfold step.
  assert (KC : forall n s', size (p_toks s') <= size (p_toks s) ->
    shrinks s (rmap (fun r => let '(ns, e, s') := r in (n :: ns, e, s')) (rec st s'))).
  { intros n s' H. specialize (K st s'). destruct (rec st s') as [[[ns e] s'']|]; cbn [rmap rbind]; [|exact I].
    cbn [shrinks] in *. destruct K as [K1 K2]. split; [lia|exact K2]. }
  destruct s as [toks funs mods ind ch k]. cbn [p_toks p_funs p_mod p_in_def p_child p_calls with_toks] in *.
  destruct toks as [|[ln t|ln t|ln tag tb| |e] ts]; try exact I.
  - cbn. lia.
  - destruct (unescape_newlines t); cbn [rbind]; [|exact I]. apply KC. cbn. lia.
  - apply KC. cbn. lia.
  - destruct (smem tag st); [cbn; unfold size; lia|].
    assert (KB : forall tags s' (k' : list (option node) -> stop -> pst -> result (option node * pst)),
      p_toks s' = ts ->
      (forall ns e s'', size (p_toks s'') + (match e with Some _ => 1 | None => 0 end) <= size ts ->
         match e with Some t => counts t = true | None => True end ->
         match k' ns e s'' with Ok (_, s3) => size (p_toks s3) <= size ts | Raise _ => True end) ->
      shrinks (Pst (TTag ln tag tb :: ts) funs mods ind ch k)
        (rbind (rbind (rec tags s') (fun r => let '(ns, e, s'') := r in k' ns e s''))
           (fun p => rmap (fun r => let '(ns, e, s') := r in (fst p :: ns, e, s')) (rec st (snd p))))).
    { intros tags s' k' E Hk. pose proof (K tags s') as Ks. destruct (rec tags s') as [[[ns e] s'']|]; [|exact I].
      cbn [rbind shrinks] in *. rewrite E in Ks. destruct Ks as [K1 K2]. specialize (Hk ns e s'' K1 K2).
      destruct (k' ns e s'') as [[n s3]|]; [|exact I]. cbn [rbind fst snd]. apply KC. cbn. unfold size in *. lia. }
    assert (KO : forall n s', size (p_toks s') <= size ts ->
      shrinks (Pst (TTag ln tag tb :: ts) funs mods ind ch k)
        (rbind (Ok (n, s')) (fun p => rmap (fun r => let '(ns, e, s') := r in (fst p :: ns, e, s')) (rec st (snd p))))).
    { intros n s' H. cbn [rbind fst snd]. apply KC. cbn. unfold size in *. lia. }
    assert (KR : forall e, shrinks (Pst (TTag ln tag tb :: ts) funs mods ind ch k)
        (rbind (Raise e) (fun p => rmap (fun r => let '(ns, e, s') := r in (fst p :: ns, e, s')) (rec st (snd p))))) by (intros; exact I).
    destruct (seqb tag (L "def")); [apply KB; [reflexivity|]; intros ns e s'' H _; destruct ind; cbn [p_toks with_toks]; lia|].
    destruct (seqb tag (L "call")).
    { destruct (find_from (L "(") tb 0) as [b|]; [|apply KR]. destruct (find_from (L ")") tb b); [|apply KR].
      apply KB; [reflexivity|]. intros ns e s'' H _. cbn [p_toks with_toks]. lia. }
    destruct (seqb tag (L "if")).
    { apply KB; [reflexivity|]. intros ns e s'' H He. destruct e as [[| |ln' tg b'| |]|]; try exact I.
      destruct (seqb tg (L "else")); cbn [p_toks with_toks]; [|lia]. cbn. unfold size in *. lia. }
    destruct (seqb tag (L "for")); [apply KB; [reflexivity|]; intros ns e s'' H _; lia|].
    destruct (seqb tag (L "switch")); [apply KB; [reflexivity|]; intros ns e s'' H _; lia|].
    destruct (seqb tag (L "case")).
    { apply KB; [reflexivity|]. intros ns e s'' H He. cbn [p_toks with_toks].
      destruct e as [t|]; cbn [size filter]; [unfold size; cbn [filter]; rewrite He; cbn [length]; unfold size in H; lia|].
      unfold size; cbn [filter counts]. unfold size in H. lia. }
    destruct (seqb tag (L "else")); [apply KB; [reflexivity|]; intros ns e s'' H _; lia|].
    destruct (seqb tag (L "extends")).
    { destruct (shlex_split tb) as [[|fn [|fn2 more]]|]; cbn [rbind]; try exact I. apply KC. cbn. unfold size. lia. }
    destruct (seqb tag (L "import")).
    { destruct (shlex_split tb) as [[|fn [|fn2 more]]|]; cbn [rbind]; try exact I; [apply KC; cbn; unfold size; lia|].
      destruct (seqb fn2 (L "as")); [|exact I]. destruct more; [exact I|]. apply KC. cbn. unfold size. lia. }
    destruct (seqb tag (L "include")).
    { destruct (shlex_split tb) as [[|fn [|fn2 more]]|]; cbn [rbind]; try exact I. apply KC. cbn. unfold size. lia. }
    destruct (seqb tag (L "py")).
    { assert (KF : forall ns e s'', size (p_toks s'') + (match e : stop with Some _ => 1 | None => 0 end) <= size ts ->
        match rbind (python_of ns) (fun n =>
                match n with
                | NPython ln ls true =>
                    Ok (None, Pst (p_toks s'') (p_funs s'') (p_mod s'' ++ [(ln, ls)]) (p_in_def s'') (p_child s'') (p_calls s''))
                | _ => Ok (Some n, s'')
                end) with Ok (_, s3) => size (p_toks s3) <= size ts | Raise _ => True end).
      { intros ns e s'' H. destruct (python_of ns) as [n|]; cbn [rbind]; [|exact I].
        destruct n; try (cbn [p_toks with_toks]; lia). destruct module_level; cbn [p_toks with_toks]; lia. }
      destruct (strip tb) as [|c0 code]; [apply KB; [reflexivity|]; intros ns e s'' H _; now apply KF with e|].
      destruct (python_of [Some (NText 0 (c0 :: code) None)]) as [n|]; cbn [rbind]; [|exact I].
      destruct n; try (apply KO; cbn [p_toks with_toks]; lia).
      destruct module_level; apply KO; cbn [p_toks with_toks]; lia. }
    destruct (seqb tag (L "block")).
    { apply KB; [reflexivity|]. intros ns e s'' H _. destruct (p_child s''); [|cbn [p_toks with_toks]; lia].
      destruct (mk_python _ _); cbn [rmap rbind p_toks]; [lia|exact I]. }
    destruct (seqb tag (L "body")); [apply KO; cbn [p_toks with_toks]; lia|exact I].
Qed.
Lemma parse_shrinks : forall f st s, shrinks s (parse_body f st s).
Proof. induction f as [|f IH]; intros st s; [exact I|]. rewrite parse_step. apply step_shrinks. exact IH. Qed.

(** Calls on fewer tokens are all that matter. *)
Lemma step_same : forall rec1 rec2 st s,
  (forall st s, shrinks s (rec1 st s)) ->
  (forall st' s', size (p_toks s') < size (p_toks s) -> rec1 st' s' = rec2 st' s') ->
  (forall st' s', 0 < size (p_toks s) -> (exists ts, p_toks s' = TNone :: ts) -> rec1 st' s' = rec2 st' s') ->
  step rec1 st s = step rec2 st s.
Proof.
  intros rec1 rec2 st s Sh E0 EN. unfold step.
  destruct s as [toks funs mods ind ch k]. cbn [p_toks p_funs p_mod p_in_def p_child p_calls with_toks] in *.
  assert (KC : forall (n : option node) s', size (p_toks s') < size toks \/ (0 < size toks /\ exists ts, p_toks s' = TNone :: ts) ->
    rmap (fun r : list (option node) * stop * pst => let '(ns, e, s') := r in (n :: ns, e, s')) (rec1 st s') =
    rmap (fun r : list (option node) * stop * pst => let '(ns, e, s') := r in (n :: ns, e, s')) (rec2 st s')).
  { intros n s' [H|[H0 H]]; [now rewrite E0|now rewrite EN]. }
  destruct toks as [|[ln t|ln t|ln tag tb| |e] ts]; try reflexivity.
  - destruct (unescape_newlines t); cbn [rbind]; [|reflexivity]. apply KC. left. cbn. lia.
  - apply KC. left. cbn. lia.
  - destruct (smem tag st); [reflexivity|].
    assert (Sz : size (TTag ln tag tb :: ts) = S (size ts)) by reflexivity.
    assert (KB : forall tags s' (k' : list (option node) -> stop -> pst -> result (option node * pst)),
      p_toks s' = ts ->
      (forall ns e s'', size (p_toks s'') + (match e with Some _ => 1 | None => 0 end) <= size ts ->
         match e with Some t => counts t = true | None => True end ->
         match k' ns e s'' with Ok (_, s3) => size (p_toks s3) <= size ts \/ (exists ts, p_toks s3 = TNone :: ts) | Raise _ => True end) ->
        (rbind (rbind (rec1 tags s') (fun r => let '(ns, e, s'') := r in k' ns e s''))
           (fun p => rmap (fun r : list (option node) * stop * pst => let '(ns, e, s') := r in (fst p :: ns, e, s')) (rec1 st (snd p)))) =
        (rbind (rbind (rec2 tags s') (fun r => let '(ns, e, s'') := r in k' ns e s''))
           (fun p => rmap (fun r : list (option node) * stop * pst => let '(ns, e, s') := r in (fst p :: ns, e, s')) (rec2 st (snd p))))).
    { intros tags s' k' E Hk. rewrite <- (E0 tags s') by (rewrite E, Sz; lia).
      pose proof (Sh tags s') as Ks. destruct (rec1 tags s') as [[[ns e] s'']|]; [|reflexivity].
      cbn [rbind shrinks] in *. rewrite E in Ks. destruct Ks as [K1 K2]. specialize (Hk ns e s'' K1 K2).
      destruct (k' ns e s'') as [[n s3]|]; [|reflexivity]. cbn [rbind fst snd]. apply KC. rewrite Sz. destruct Hk; [left; lia|right; split; [lia|assumption]]. }
    assert (KO : forall n s', size (p_toks s') <= size ts ->
        (rbind (Ok (n, s')) (fun p => rmap (fun r : list (option node) * stop * pst => let '(ns, e, s') := r in (fst p :: ns, e, s')) (rec1 st (snd p)))) =
        (rbind (Ok (n, s')) (fun p => rmap (fun r : list (option node) * stop * pst => let '(ns, e, s') := r in (fst p :: ns, e, s')) (rec2 st (snd p))))).
    { intros n s' H. cbn [rbind fst snd]. apply KC. rewrite Sz. left. lia. }
    destruct (seqb tag (L "def")); [apply KB; [reflexivity|]; intros ns e s'' H _; destruct ind; left; cbn [p_toks with_toks]; lia|].
    destruct (seqb tag (L "call")).
    { destruct (find_from (L "(") tb 0) as [b|]; [|reflexivity]. destruct (find_from (L ")") tb b); [|reflexivity].
      apply KB; [reflexivity|]. intros ns e s'' H _. left. cbn [p_toks with_toks]. lia. }
    destruct (seqb tag (L "if")).
    { apply KB; [reflexivity|]. intros ns e s'' H He. destruct e as [[| |ln' tg b'| |]|]; try exact I.
      left. destruct (seqb tg (L "else")); cbn [p_toks with_toks]; [|lia]. cbn. unfold size in *. lia. }
    destruct (seqb tag (L "for")); [apply KB; [reflexivity|]; intros ns e s'' H _; left; lia|].
    destruct (seqb tag (L "switch")); [apply KB; [reflexivity|]; intros ns e s'' H _; left; lia|].
    destruct (seqb tag (L "case")).
    { apply KB; [reflexivity|]. intros ns e s'' H He. cbn [p_toks with_toks].
      destruct e as [t|]; [left|right; eexists; reflexivity].
      unfold size; cbn [filter]; rewrite He; cbn [length]; unfold size in H; lia. }
    destruct (seqb tag (L "else")); [apply KB; [reflexivity|]; intros ns e s'' H _; left; lia|].
    destruct (seqb tag (L "extends")).
    { destruct (shlex_split tb) as [[|fn [|fn2 more]]|]; cbn [rbind]; try reflexivity. apply KC. left. rewrite Sz. cbn [p_toks snd with_toks]. lia. }
    destruct (seqb tag (L "import")).
    { destruct (shlex_split tb) as [[|fn [|fn2 more]]|]; cbn [rbind]; try reflexivity; [apply KC; left; rewrite Sz; cbn [p_toks snd with_toks]; lia|].
      destruct (seqb fn2 (L "as")); [|reflexivity]. destruct more; [reflexivity|]. apply KC. left. rewrite Sz. cbn [p_toks snd with_toks]. lia. }
    destruct (seqb tag (L "include")).
    { destruct (shlex_split tb) as [[|fn [|fn2 more]]|]; cbn [rbind]; try reflexivity. apply KC. left. rewrite Sz. cbn [p_toks snd with_toks]. lia. }
    destruct (seqb tag (L "py")).
    { destruct (strip tb) as [|c0 code].
      - apply KB; [reflexivity|]; intros ns e s'' H _.
        destruct (python_of ns) as [n|]; cbn [rbind]; [|exact I].
        destruct n; try (left; cbn [p_toks with_toks]; lia). destruct module_level; left; cbn [p_toks with_toks]; lia.
      - destruct (python_of [Some (NText 0 (c0 :: code) None)]) as [n|]; cbn [rbind]; [|reflexivity].
        destruct n; try (apply KO; cbn [p_toks with_toks]; lia).
      destruct module_level; apply KO; cbn [p_toks with_toks]; lia. }
    destruct (seqb tag (L "block")).
    { apply KB; [reflexivity|]. intros ns e s'' H _. destruct (p_child s''); [|left; cbn [p_toks with_toks]; lia].
      destruct (mk_python _ _); cbn [rmap rbind p_toks]; [left; lia|exact I]. }
    destruct (seqb tag (L "body")); [apply KO; cbn [p_toks with_toks]; lia|reflexivity].
Qed.

(** Any fuel above the number of tokens gives the same result. *)
Theorem fuel_enough : forall f1 f2 st s, size (p_toks s) < f1 -> size (p_toks s) < f2 ->
  parse_body f1 st s = parse_body f2 st s.
Proof.
  induction f1 as [|f1 IH]; intros f2 st s H1 H2; [lia|]. destruct f2 as [|f2]; [lia|].
  rewrite !parse_step. apply step_same.
  - apply parse_shrinks.
  - intros st' s' H. apply IH; lia.
  - intros st' s' Hp (ts & E). destruct f1 as [|f1]; [lia|]. destruct f2 as [|f2]; [lia|].
    rewrite !parse_step. unfold step. now rewrite E.
Qed.
End Parser.
