(** * Text templates: the scanner follows the grammar *)

From Coq Require Import Ascii String List Arith NArith ZArith Bool Lia.
From Verif Require Import PyStr PyStrLemmas Regex RegexLemmas M_IR M_Text S_Text P_Text.
Import ListNotations.
Open Scope list_scope.

(** ** The cases of the pattern *)

Definition starred (p : char -> bool) (t : str) : Prop := Forall (fun c => p c = true) t.

Inductive dcase (prev : option char) : str -> nat -> str -> str -> Prop :=
| d1 : forall v, dcase prev (L "$$" ++ v) 1 (L "$") v
| d2 : forall c n v, name_start c = true -> starred name_rest n -> stops (fun c => name_rest c = true) v ->
    dcase prev (L "$" ++ (c :: n) ++ v) 2 (c :: n) v
| d3 : forall v, dcase prev (L "${" ++ v) 3 [] v
| d4 : forall v, dcase prev (L "$" ++ v) 4 [] v
| d5 : forall ws t v, line_start prev -> starred is_space ws -> t <> [] -> Forall letter t -> stops letter v ->
    dcase prev (ws ++ L "%" ++ t ++ v) 5 t v
| d6 : forall ws v, line_start prev -> starred is_space ws -> stops letter v ->
    dcase prev (ws ++ L "%" ++ v) 6 [] v
| d7 : forall ws t v, line_start prev -> starred is_space ws -> t <> [] -> Forall letter t -> stops letter v ->
    dcase prev (ws ++ L "{%-" ++ t ++ v) 7 t v
| d8 : forall t v, t <> [] -> Forall letter t -> stops letter v ->
    dcase prev (L "{%" ++ t ++ v) 8 t v
| d9 : forall v, dcase prev (L "{%" ++ v) 9 [] v.

Lemma takewhile_all : forall p (s : str), starred p (takewhile p s).
Proof. induction s as [|x s IH]; cbn; [constructor|]. destruct (p x) eqn:E; [constructor; assumption|constructor]. Qed.
Lemma dropwhile_stops : forall (p : char -> bool) (s : str), stops (fun c => p c = true) (dropwhile p s).
Proof. induction s as [|x s IH]; cbn; [exact I|]. destruct (p x) eqn:E; [exact IH|cbn; congruence]. Qed.

Lemma is_bol_start : forall prev, is_bol prev = true -> line_start prev.
Proof. intros [x|] H; [right|now left]. apply N.eqb_eq in H. now subst. Qed.
Lemma start_is_bol : forall prev, line_start prev -> is_bol prev = true.
Proof. intros prev [-> | ->]; reflexivity. Qed.

Lemma prefix_split : forall p s, prefixb p s = true -> s = p ++ skipn (length p) s.
Proof.
  induction p as [|x p IH]; intros [|y s] H; cbn in *; try discriminate; try reflexivity.
  apply andb_true_iff in H as [E H]. apply N.eqb_eq in E. subst. f_equal. now apply IH.
Qed.

Lemma tag_name_case : forall g bad v rest c, tag_name g bad v = (rest, c) ->
  (c = [(g, takewhile is_az v)] /\ v = takewhile is_az v ++ rest /\ takewhile is_az v <> [] /\ stops letter rest) \/
  (c = [(bad, [])] /\ v = rest /\ stops letter rest).
Proof.
  intros g bad v rest c H. unfold tag_name in H. destruct (lead is_az v) eqn:E; injection H as <- <-.
  - left. split; [reflexivity|]. split; [now rewrite take_drop|]. split; [|apply dropwhile_stops].
    destruct v as [|x v]; [discriminate|]. cbn in *. now rewrite E.
  - right. split; [reflexivity|]. split; [reflexivity|]. destruct v as [|x v]; [exact I|]. cbn in *. unfold letter. congruence.
Qed.

Lemma directive_case : forall prev s rest c, directive prev s = Some (rest, c) ->
  exists g t, c = [(g, t)] /\ dcase prev s g t rest.
Proof.
  intros prev s rest c H. unfold directive in H. destruct s as [|x s]; [discriminate|].
  destruct (N.eqb_spec x c_dollar) as [->|NE].
  - unfold dollar in H. destruct s as [|y s].
    + injection H as <- <-. exists 4, []. split; [reflexivity|]. apply (d4 prev []).
    + destruct (N.eqb_spec y c_dollar) as [->|Ny].
      { injection H as <- <-. exists 1, (L "$"). split; [reflexivity|]. apply (d1 prev s). }
      destruct (name_start y) eqn:Hn.
      { injection H as <- <-. exists 2, (y :: takewhile name_rest s). split; [reflexivity|].
        rewrite <- (take_drop name_rest s) at 1.
        apply (d2 prev y (takewhile name_rest s) (dropwhile name_rest s) Hn (takewhile_all _ _) (dropwhile_stops _ _)). }
      destruct (N.eqb_spec y c_lbrace) as [->|Nb].
      { injection H as <- <-. exists 3, []. split; [reflexivity|]. apply (d3 prev s). }
      injection H as <- <-. exists 4, []. split; [reflexivity|]. apply (d4 prev (y :: s)).
  - assert (Sp : forall u, u = dropwhile is_space (x :: s) -> x :: s = takewhile is_space (x :: s) ++ u).
    { intros u ->. now rewrite take_drop. }
    set (u := dropwhile is_space (x :: s)) in *. specialize (Sp u eq_refl).
    pose proof (takewhile_all is_space (x :: s)) as Sw. set (ws := takewhile is_space (x :: s)) in *.
    destruct (is_bol prev && prefixb (L "%") u) eqn:E2.
    { apply andb_true_iff in E2 as [B P1]. apply is_bol_start in B. apply prefix_split in P1. cbn [length L] in P1.
      rewrite Sp, P1. assert (T : tag_name 5 6 (skipn 1 u) = (rest, c)) by congruence.
      apply tag_name_case in T as [(-> & Ev & Ne & Sr)|(-> & Ev & Sr)].
      - exists 5, (takewhile is_az (skipn 1 u)). split; [reflexivity|]. rewrite Ev at 1.
        apply (d5 prev ws _ rest B Sw Ne (takewhile_all _ _) Sr).
      - exists 6, []. split; [reflexivity|]. rewrite Ev. apply (d6 prev ws rest B Sw Sr). }
    destruct (is_bol prev && prefixb (L "{%-") u && lead is_az (skipn 3 u)) eqn:E3.
    { apply andb_true_iff in E3 as [E3 El]. apply andb_true_iff in E3 as [B P1].
      apply is_bol_start in B. apply prefix_split in P1. cbn [length L] in P1.
      rewrite Sp, P1. injection H as <- <-.
      exists 7, (takewhile is_az (skipn 3 u)). split; [reflexivity|].
      rewrite <- (take_drop is_az (skipn 3 u)) at 1.
      apply (d7 prev ws _ _ B Sw); [|apply takewhile_all|apply dropwhile_stops].
      destruct (skipn 3 u) as [|y t]; [discriminate|]. cbn in *. now rewrite El. }
    unfold in_braces in H. destruct (prefixb (L "{%") (x :: s)) eqn:E4; [|discriminate].
    apply prefix_split in E4. change (length (L "{%")) with 2 in E4. rewrite E4.
    assert (T : tag_name 8 9 (skipn 2 (x :: s)) = (rest, c)) by congruence.
    apply tag_name_case in T as [(-> & Ev & Ne & Sr)|(-> & Ev & Sr)].
    + exists 8, (takewhile is_az (skipn 2 (x :: s))). split; [reflexivity|]. rewrite Ev at 1.
      apply (d8 prev _ rest Ne (takewhile_all _ _) Sr).
    + exists 9, []. split; [reflexivity|]. rewrite Ev. apply (d9 prev rest).
Qed.

Lemma text_never_empty : never_empty text_pattern.
Proof.
  intros prev s rest c H. rewrite pattern_directive in H. apply directive_case in H as (g & t & _ & D).
  destruct D; repeat rewrite app_length; cbn [length L]; try lia.
Qed.

(** Where something begins the pattern matches. *)
Lemma dropwhile_app : forall (p : char -> bool) ws c v, starred p ws -> p c = false -> dropwhile p (ws ++ c :: v) = c :: v.
Proof.
  intros p ws c v H Hc. induction H as [|x ws Hx H IH]; cbn; [now rewrite Hc|]. now rewrite Hx.
Qed.

Lemma begins_directive : forall prev s, begins prev s ->
  exists rest g t, directive prev s = Some (rest, [(g, t)]) /\ g <> 6.
Proof.
  intros prev s B.
  assert (X : exists rest c, directive prev s = Some (rest, c) /\ forall t, c <> [(6, t)]).
  { destruct B as [(v & ->)|[(v & ->)|(Ls & ws & c & v & Sw & Lc & [E|E])]].
    - exists (fst (dollar v)), (snd (dollar v)). split.
      + unfold directive. change (N.eqb c_dollar c_dollar) with true. cbv iota. now destruct (dollar v).
      + intros t. unfold dollar. destruct v as [|y v]; [discriminate|].
        destruct (N.eqb y c_dollar); [discriminate|]. destruct (name_start y); [discriminate|].
        destruct (N.eqb y c_lbrace); discriminate.
    - unfold directive. cbn [L app]. change (N.eqb (N_of_ascii "{") c_dollar) with false. cbv iota.
      cbn [dropwhile]. change (is_space (N_of_ascii "{")) with false. cbv iota.
      change (prefixb [N_of_ascii "%"] (N_of_ascii "{" :: N_of_ascii "%" :: v)) with false. rewrite andb_false_r.
      destruct (is_bol prev && prefixb _ _ && lead is_az _); [eexists _, _; split; [reflexivity|discriminate]|].
      unfold in_braces. change (prefixb (L "{%") (N_of_ascii "{" :: N_of_ascii "%" :: v)) with true. cbv iota.
      cbn [skipn]. unfold tag_name. destruct (lead is_az v); eexists _, _; (split; [reflexivity|discriminate]).
    - assert (Hh : forall v', exists y s', ws ++ L "%" ++ v' = y :: s' /\ N.eqb y c_dollar = false).
      { intros v'. destruct Sw as [|y ws Hy Sw]; [now exists c_pct, v'|]. exists y, (ws ++ L "%" ++ v'). split; [reflexivity|].
        destruct (space_not y Hy) as (_ & _ & Hd). now rewrite N.eqb_sym. }
      destruct (Hh (c :: v)) as (y & s' & Ey & Hy). rewrite <- E in Ey. unfold directive. rewrite Ey, Hy, <- Ey, E.
      cbn [L app]. rewrite (dropwhile_app is_space ws (N_of_ascii "%")) by (exact Sw || reflexivity).
      rewrite (start_is_bol _ Ls). cbn [prefixb andb skipn]. change (N.eqb (N_of_ascii "%") (N_of_ascii "%")) with true. cbn [andb].
      unfold tag_name. cbn [lead]. rewrite Lc. eexists _, _. split; [reflexivity|discriminate].
    - assert (Hh : forall v', exists y s', ws ++ L "{%-" ++ v' = y :: s' /\ N.eqb y c_dollar = false).
      { intros v'. destruct Sw as [|y ws Hy Sw]; [now exists c_lbrace, (L "%-" ++ v')|]. exists y, (ws ++ L "{%-" ++ v'). split; [reflexivity|].
        destruct (space_not y Hy) as (_ & _ & Hd). now rewrite N.eqb_sym. }
      destruct (Hh (c :: v)) as (y & s' & Ey & Hy). rewrite <- E in Ey. unfold directive. rewrite Ey, Hy, <- Ey, E.
      cbn [L app]. rewrite (dropwhile_app is_space ws (N_of_ascii "{")) by (exact Sw || reflexivity).
      rewrite (start_is_bol _ Ls). cbn [prefixb andb skipn].
      change (N.eqb (N_of_ascii "%") (N_of_ascii "{")) with false. change (N.eqb (N_of_ascii "{") (N_of_ascii "{")) with true.
      change (N.eqb (N_of_ascii "%") (N_of_ascii "%")) with true. change (N.eqb (N_of_ascii "-") (N_of_ascii "-")) with true.
      cbn [andb lead]. rewrite Lc. eexists _, _. split; [reflexivity|discriminate]. }
  destruct X as (rest & c & D & N6). destruct (directive_case _ _ _ _ D) as (g & t & -> & _).
  exists rest, g, t. split; [exact D|]. intros ->. now apply (N6 t).
Qed.

(** Inside a [%] that is followed by no letter nothing begins. *)
Lemma bare_nothing : forall ws1 ws2 v prev, starred is_space ws2 -> stops letter v ->
  ~ begins (last_of prev ws1) (ws2 ++ L "%" ++ v).
Proof.
  intros ws1 ws2 v prev S2 Sv B.
  destruct B as [(v' & E)|[(v' & E)|(_ & ws & c & v' & Sw & Lc & [E|E])]].
  - destruct S2 as [|y ws2 Hy S2]; cbn in E; [discriminate|]. injection E as -> _. discriminate Hy.
  - destruct S2 as [|y ws2 Hy S2]; cbn in E; [discriminate|]. injection E as -> _. discriminate Hy.
  - assert (D : dropwhile is_space (ws2 ++ L "%" ++ v) = L "%" ++ v) by (cbn [L app]; now apply dropwhile_app).
    rewrite E in D. cbn [L app] in D. rewrite dropwhile_app in D by (exact Sw || reflexivity).
    assert (v = c :: v') by congruence. subst v. cbn in Sv. contradiction.
  - assert (D : dropwhile is_space (ws2 ++ L "%" ++ v) = L "%" ++ v) by (cbn [L app]; now apply dropwhile_app).
    rewrite E in D. cbn [L app] in D. rewrite dropwhile_app in D by (exact Sw || reflexivity). discriminate.
Qed.

(** Matched texts. *)
Lemma case_text : forall prev s g t v, dcase prev s g t v ->
  exists u, s = u ++ v /\ ~ In c_rbrace u /\ (In c_nl u -> line_start prev).
Proof.
  intros prev s g t v D.
  assert (Lt : forall t, Forall letter t -> ~ In c_rbrace t /\ ~ In c_nl t).
  { intros x H. rewrite Forall_forall in H. split; intros I1; apply H in I1; discriminate. }
  assert (Ls : forall t, starred is_space t -> ~ In c_rbrace t).
  { intros x H I1. unfold starred in H. rewrite Forall_forall in H. apply H in I1. discriminate. }
  assert (Ln : forall t, starred name_rest t -> ~ In c_rbrace t /\ ~ In c_nl t).
  { intros x H. unfold starred in H. rewrite Forall_forall in H. split; intros I1; apply H in I1; discriminate. }
  destruct D as [v|c n v Hc Hn Hv|v|v|ws t v B Sw Ne Lt' Sv|ws v B Sw Sv|ws t v B Sw Ne Lt' Sv|t v Ne Lt' Sv|v].
  - exists (L "$$"). split; [reflexivity|]. split; cbn; intuition discriminate.
  - exists (L "$" ++ c :: n). split; [reflexivity|].
    destruct (Ln n Hn). split; cbn; intros [E|[E|E]]; try discriminate; try contradiction; subst c; discriminate.
  - exists (L "${"). split; [reflexivity|]. split; cbn; intuition discriminate.
  - exists (L "$"). split; [reflexivity|]. split; cbn; intuition discriminate.
  - exists (ws ++ L "%" ++ t). split; [now rewrite <- !app_assoc|]. split; [|intros _; exact B].
    rewrite !in_app_iff. destruct (Lt t Lt'). specialize (Ls ws Sw). cbn. intuition discriminate.
  - exists (ws ++ L "%"). split; [now rewrite <- !app_assoc|]. split; [|intros _; exact B].
    rewrite !in_app_iff. specialize (Ls ws Sw). cbn. intuition discriminate.
  - exists (ws ++ L "{%-" ++ t). split; [now rewrite <- !app_assoc|]. split; [|intros _; exact B].
    rewrite !in_app_iff. destruct (Lt t Lt'). specialize (Ls ws Sw). cbn. intuition discriminate.
  - exists (L "{%" ++ t). split; [now rewrite <- !app_assoc|]. destruct (Lt t Lt').
    rewrite !in_app_iff. split; cbn; intuition discriminate.
  - exists (L "{%"). split; [reflexivity|]. split; cbn; intuition discriminate.
Qed.
Lemma case_blank : forall prev c s g t v, dcase prev (c :: s) g t v -> blank c -> line_start prev.
Proof.
  intros prev c s g t v D B. inversion D; subst; try assumption; destruct B; subst; discriminate.
Qed.
