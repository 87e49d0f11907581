(** * Text templates: what the pattern matches *)

From Coq Require Import Ascii String List Arith NArith ZArith Bool Lia.
From Verif Require Import PyStr PyStrLemmas Regex RegexLemmas M_IR M_Text S_Text.
Import ListNotations.
Open Scope list_scope.

(** [finditer] by positions. *)
Definition prev_at (source : str) (i : nat) : option char := last_of None (firstn i source).
Definition match_pos (r : re) (source : str) (i : nat) : option rest_caps :=
  match_at r (prev_at source i) (skipn i source).

Inductive fmatches (r : re) (source : str) : nat -> list mobj -> Prop :=
| fm_nil : forall f, (forall i, f <= i -> i <= length source -> match_pos r source i = None) -> fmatches r source f []
| fm_cons : forall f m ms rest,
    f <= mstart m -> mstart m <= length source ->
    (forall i, f <= i -> i < mstart m -> match_pos r source i = None) ->
    match_pos r source (mstart m) = Some (rest, mcaps m) ->
    mend m = mstart m + (length (skipn (mstart m) source) - length rest) ->
    fmatches r source (mend m) ms -> fmatches r source f (m :: ms).


Lemma prev_at_app : forall pre s, prev_at (pre ++ s) (length pre) = last_of None pre.
Proof. intros pre s. unfold prev_at. now rewrite firstn_app, Nat.sub_diag, firstn_all, app_nil_r. Qed.
Lemma skipn_pre : forall {A} (pre s : list A), skipn (length pre) (pre ++ s) = s.
Proof. intros A pre s. now rewrite skipn_app, Nat.sub_diag, skipn_all. Qed.

Definition never_empty (r : re) : Prop := forall prev s rest c, match_at r prev s = Some (rest, c) -> length rest < length s.


Lemma finditer_from_spec : forall r source, never_empty r -> forall s pre skip,
  source = pre ++ s -> skip <= length s ->
  fmatches r source (length pre + skip) (finditer_from r (length pre) (last_of None pre) skip s).
Proof.
  intros r source NE. induction s as [|x s IH]; intros pre skip E Hs.
  - assert (skip = 0) by (cbn in Hs; lia). subst skip. cbn [finditer_from].
    destruct (match_at r (last_of None pre) []) as [[rest c]|] eqn:M.
    + apply NE in M. cbn in M. lia.
    + rewrite Nat.add_0_r. constructor. intros i H1 H2. rewrite E, app_nil_r in H2.
      assert (i = length pre) by lia. subst i. unfold match_pos.
      rewrite E, prev_at_app, skipn_pre. exact M.
  - assert (E' : source = (pre ++ [x]) ++ s) by (rewrite <- app_assoc; exact E).
    assert (Lp : length (pre ++ [x]) = S (length pre)) by (rewrite app_length; cbn; lia).
    assert (La : last_of None (pre ++ [x]) = Some x) by (unfold last_of; now rewrite fold_left_app).
    cbn [finditer_from]. destruct skip as [|k].
    + rewrite Nat.add_0_r. destruct (match_at r (last_of None pre) (x :: s)) as [[rest c]|] eqn:M.
      * pose proof (NE _ _ _ _ M) as Lt. cbn [length] in Lt.
        apply fm_cons with (rest := rest); cbn [mstart mend mcaps].
        -- lia.
        -- rewrite E, app_length. lia.
        -- intros i H1 H2. lia.
        -- unfold match_pos. now rewrite E, prev_at_app, skipn_pre.
        -- rewrite E, skipn_pre. reflexivity.
        -- specialize (IH (pre ++ [x]) (length (x :: s) - length rest - 1) E'). rewrite Lp, La in IH.
           replace (length pre + (length (x :: s) - length rest)) with
             (S (length pre) + (length (x :: s) - length rest - 1)) by (cbn [length]; lia).
           apply IH. cbn [length]. lia.
      * specialize (IH (pre ++ [x]) 0 E'). rewrite Lp, La, Nat.add_0_r in IH. specialize (IH ltac:(lia)).
        assert (X : match_pos r source (length pre) = None).
        { unfold match_pos. now rewrite E, prev_at_app, skipn_pre. }
        inversion IH as [f Hn|f m ms rest H1 H2 H3 H4 H5 H6]; subst f.
        -- apply fm_nil. intros i Hi Hi'. destruct (Nat.eq_dec i (length pre)) as [->|]; [exact X|apply Hn; lia].
        -- apply fm_cons with (rest := rest); try assumption; try lia.
           intros i Hi Hi'. destruct (Nat.eq_dec i (length pre)) as [->|]; [exact X|apply H3; lia].
    + specialize (IH (pre ++ [x]) k E'). rewrite Lp, La in IH. cbn [length] in Hs.
      replace (length pre + S k) with (S (length pre) + k) by lia. apply IH. lia.
Qed.
Lemma finditer_spec : forall r source, never_empty r -> fmatches r source 0 (finditer r source).
Proof. intros r source NE. apply (finditer_from_spec r source NE source [] 0 eq_refl). lia. Qed.

(** ** The pattern *)

Definition is_bol (prev : option char) : bool := match prev with None => true | Some x => N.eqb x c_nl end.

Definition lead (p : char -> bool) (s : str) : bool := match s with c :: _ => p c | [] => false end.

(** A tag name after something. *)
Definition tag_name (g bad : nat) (v : str) : rest_caps :=
  if lead is_az v then (dropwhile is_az v, [(g, takewhile is_az v)]) else (v, [(bad, [])]).
Definition dollar (s : str) : rest_caps :=
  match s with
  | c :: v =>
      if N.eqb c c_dollar then (v, [(1, [c])])
      else if name_start c then (dropwhile name_rest v, [(2, c :: takewhile name_rest v)])
      else if N.eqb c c_lbrace then (v, [(3, [])])
      else (s, [(4, [])])
  | [] => ([], [(4, [])])
  end.
Definition in_braces (s : str) : option rest_caps :=
  if prefixb (L "{%") s then Some (tag_name 8 9 (skipn 2 s)) else None.
Definition directive (prev : option char) (s : str) : option rest_caps :=
  match s with
  | [] => None
  | c :: s' =>
      if N.eqb c c_dollar then Some (dollar s')
      else
        let u := dropwhile is_space s in
        if is_bol prev && prefixb (L "%") u then Some (tag_name 5 6 (skipn 1 u))
        else if is_bol prev && prefixb (L "{%-") u && lead is_az (skipn 3 u)
        then Some (dropwhile is_az (skipn 3 u), [(7, takewhile is_az (skipn 3 u))])
        else in_braces s
  end.

Lemma rep_az_none : forall v prev c k, lead is_az v = false -> rep_from is_az prev v c k 1 None = None.
Proof. intros [|x v] prev c k H; [reflexivity|]. cbn in *. now rewrite H. Qed.

Lemma take_drop_length : forall p (s : str), length s - length (dropwhile p s) = length (takewhile p s).
Proof.
  induction s as [|x s IH]; [reflexivity|]. cbn [takewhile dropwhile]. destruct (p x); [|cbn [length]; lia].
  cbn [length] in *. assert (length (dropwhile p s) <= length s).
  { clear. induction s as [|y s IH]; [reflexivity|]. cbn. destruct (p y); cbn; lia. }
  lia.
Qed.
Lemma take_drop : forall p (s : str), takewhile p s ++ dropwhile p s = s.
Proof. induction s as [|x s IH]; [reflexivity|]. cbn. destruct (p x); [cbn; now rewrite IH|reflexivity]. Qed.
Lemma firstn_take : forall p (s : str), firstn (length s - length (dropwhile p s)) s = takewhile p s.
Proof.
  intros p s. rewrite take_drop_length. rewrite <- (take_drop p s) at 2.
  now rewrite firstn_app, Nat.sub_diag, firstn_all, app_nil_r.
Qed.

(** A group of letters followed by anything. *)
Lemma az_group : forall g v prev c, lead is_az v = true ->
  rmatch (RGrp g (RRep 1 None is_az)) prev v c (fun _ s' c => Some (s', c)) =
  Some (dropwhile is_az v, (g, takewhile is_az v) :: c).
Proof.
  intros g v prev c H. cbn [rmatch]. apply rep_greedy.
  - destruct v as [|x v]; [discriminate|]. cbn in *. rewrite H. cbn. lia.
  - now rewrite firstn_take.
Qed.
Lemma az_group_none : forall g v prev c k, lead is_az v = false ->
  rmatch (RGrp g (RRep 1 None is_az)) prev v c k = None.
Proof. intros. cbn [rmatch]. now apply rep_az_none. Qed.

Lemma tag_name_match : forall g bad v prev,
  rmatch (RAlt (RGrp g (RRep 1 None is_az)) (RGrp bad REmp)) prev v [] (fun _ s' c => Some (s', c)) = Some (tag_name g bad v).
Proof.
  intros g bad v prev. unfold tag_name. cbn [rmatch]. destruct (lead is_az v) eqn:E.
  - change (rep_from is_az prev v [] (fun _ s' c' => Some (s', (g, firstn (length v - length s') v) :: c')) 1 None)
      with (rmatch (RGrp g (RRep 1 None is_az)) prev v [] (fun _ s' c => Some (s', c))).
    now rewrite az_group.
  - rewrite rep_az_none by exact E. now rewrite Nat.sub_diag.
Qed.

Lemma space_not : forall c, is_space c = true -> N.eqb c_pct c = false /\ N.eqb c_lbrace c = false /\ N.eqb c_dollar c = false.
Proof.
  intros c H. split; [|split];
  match goal with |- N.eqb ?a c = false => destruct (N.eqb_spec a c) as [<-|]; [discriminate H|reflexivity] end.
Qed.

Lemma bol_rmatch : forall prev s c k, rmatch RBol prev s c k = if is_bol prev then k prev s c else None.
Proof. intros [x|] s c k; reflexivity. Qed.

Lemma rmatch_alt : forall a b p s c k, rmatch (RAlt a b) p s c k =
  match rmatch a p s c k with Some x => Some x | None => rmatch b p s c k end.
Proof. reflexivity. Qed.

Theorem pattern_directive : forall prev s, match_at text_pattern prev s = directive prev s.
Proof.
  intros prev s. unfold match_at. set (k := fun (_ : option char) (s' : str) (c : caps) => Some (s', c)).
  unfold text_pattern. destruct s as [|x s].
  { cbn. destruct prev as [y|]; [destruct (N.eqb y c_nl)|]; reflexivity. }
  unfold directive. destruct (N.eqb_spec x c_dollar) as [->|NE].
  - cbn [rmatch chr]. change (N.eqb c_dollar c_dollar) with true. cbv iota.
    destruct s as [|y s]; [reflexivity|]. unfold dollar. rewrite (N.eqb_sym c_dollar y).
    destruct (N.eqb_spec y c_dollar) as [->|Ny].
    + cbn [k length]. rewrite Nat.sub_succ_l, Nat.sub_diag by lia. reflexivity.
    + destruct (name_start y) eqn:Hn.
      * rewrite rep_greedy with (x := (dropwhile name_rest s, [(2, y :: takewhile name_rest s)])); [reflexivity|lia|].
        unfold k. do 3 f_equal. f_equal.
        cbn [length]. assert (length (dropwhile name_rest s) <= length s).
        { rewrite <- (take_drop name_rest s) at 2. rewrite app_length. lia. }
        replace (S (length s) - length (dropwhile name_rest s)) with (S (length s - length (dropwhile name_rest s))) by lia.
        cbn [firstn]. now rewrite firstn_take.
      * rewrite (N.eqb_sym c_lbrace y). destruct (N.eqb y c_lbrace); unfold k; now rewrite ?Nat.sub_diag.
  - assert (A1 : forall r, rmatch (RSeq (chr c_dollar) r) prev (x :: s) [] k = None).
    { intros r. cbn [rmatch chr]. destruct (N.eqb_spec c_dollar x); [congruence|reflexivity]. }
    rewrite rmatch_alt, A1. clear A1.
    set (u := dropwhile is_space (x :: s)).
    assert (D2 : forall r, rmatch (RSeq RBol (RSeq (RRep 0 None is_space) (RSeq (chr c_pct) r))) prev (x :: s) [] k =
              if is_bol prev && prefixb (L "%") u then rmatch r (Some c_pct) (skipn 1 u) [] k else None).
    { intros r. change (rmatch (RSeq RBol ?a) prev (x :: s) [] k) with
        (rmatch RBol prev (x :: s) [] (fun p s' c' => rmatch a p s' c' k)).
      rewrite bol_rmatch. destruct (is_bol prev); [|reflexivity].
      change (rmatch (RSeq (RRep 0 None is_space) ?a) prev (x :: s) [] k) with
        (rep_from is_space prev (x :: s) [] (fun p s' c' => rmatch a p s' c' k) 0 None).
      rewrite rep_det. 2:{ intros q y t Hy. cbn [rmatch chr]. destruct (space_not y Hy) as (-> & _). reflexivity. }
      cbn [Nat.leb]. fold u. cbn [rmatch chr]. destruct u as [|y u0]; [reflexivity|]. cbn [prefixb L andb skipn].
      change (N_of_ascii "%") with c_pct. destruct (N.eqb_spec c_pct y) as [<-|]; [|reflexivity]. reflexivity. }
    assert (D3 : rmatch (RSeq RBol (RSeq (RRep 0 None is_space) (RSeq (rlit (L "{%-")) (RGrp 7 (RRep 1 None is_az))))) prev (x :: s) [] k =
              if is_bol prev && prefixb (L "{%-") u && lead is_az (skipn 3 u)
              then Some (dropwhile is_az (skipn 3 u), [(7, takewhile is_az (skipn 3 u))]) else None).
    { change (rmatch (RSeq RBol ?a) prev (x :: s) [] k) with
        (rmatch RBol prev (x :: s) [] (fun p s' c' => rmatch a p s' c' k)).
      rewrite bol_rmatch. destruct (is_bol prev); [|reflexivity].
      change (rmatch (RSeq (RRep 0 None is_space) ?a) prev (x :: s) [] k) with
        (rep_from is_space prev (x :: s) [] (fun p s' c' => rmatch a p s' c' k) 0 None).
      rewrite rep_det. 2:{ intros q y t Hy. cbn [rmatch rlit L]. change (N_of_ascii "{") with c_lbrace.
        destruct (space_not y Hy) as (_ & -> & _). reflexivity. }
      cbn [Nat.leb]. fold u.
      change (rmatch (RSeq ?a ?b) ?p u [] k) with (rmatch a p u [] (fun q s' c' => rmatch b q s' c' k)).
      rewrite rmatch_lit. cbn [andb]. destruct (prefixb (L "{%-") u); [|reflexivity]. cbn [andb].
      change (length (L "{%-")) with 3. destruct (lead is_az (skipn 3 u)) eqn:El.
      - now apply az_group.
      - now apply az_group_none. }
    rewrite rmatch_alt, D2. unfold k at 1. rewrite tag_name_match.
    destruct (is_bol prev && prefixb (L "%") u); [reflexivity|].
    rewrite rmatch_alt, D3.
    destruct (is_bol prev && prefixb (L "{%-") u && lead is_az (skipn 3 u)); [reflexivity|].
    unfold in_braces.
    change (rmatch (rlit (L "{%")) prev (x :: s) [] (fun p s' c' => rmatch (RAlt (RGrp 8 (RRep 1 None is_az)) (RGrp 9 REmp)) p s' c' k) =
        (if prefixb (L "{%") (x :: s) then Some (tag_name 8 9 (skipn 2 (x :: s))) else None)).
    rewrite rmatch_lit. destruct (prefixb (L "{%") (x :: s)); [|reflexivity]. apply tag_name_match.
Qed.
