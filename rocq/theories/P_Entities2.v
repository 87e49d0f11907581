(** * What is read as a reference *)

From Coq Require Import Ascii String List NArith ZArith Bool Lia Arith.
From Verif Require Import PyStr PyStrLemmas Regex RegexLemmas M_Html5 M_Entities S_Entities P_Entities.
Import ListNotations.
Open Scope list_scope.

Lemma hex_digit_spec : forall c, is_hex c = true <-> hex_digit c.
Proof.
  intros c. split.
  - unfold is_hex. destruct (digit c) as [d|] eqn:D; [|discriminate]. intros H. apply N.ltb_lt in H.
    exists d. now apply digit_char.
  - intros [d H]. now apply hex_char_digit in H.
Qed.

Lemma hexes_spec : forall w, forallb is_hex w = true <-> Forall hex_digit w.
Proof. intros w. rewrite forallb_forall, Forall_forall. split; intros H x I; apply hex_digit_spec; auto. Qed.

Lemma takewhile_dropwhile : forall (p : N -> bool) s, s = takewhile p s ++ dropwhile p s /\ forallb p (takewhile p s) = true.
Proof.
  intros p s. induction s as [|y s [IH1 IH2]]; [split; reflexivity|]. cbn [takewhile dropwhile].
  destruct (p y) eqn:P; [|split; reflexivity]. cbn [app forallb]. rewrite P. split; [now f_equal | exact IH2].
Qed.

Lemma ref_end_cut : forall w y rest prev c k x, forallb is_word w = true -> length w = 32 -> is_word y = true ->
  (forall numeral after, w ++ y :: rest = numeral ++ [c_semi] ++ after -> forallb is_hex numeral <> true) ->
  (forall q, k q (y :: rest) c = Some x) ->
  rmatch ref_end prev (w ++ y :: rest) c k = Some x.
Proof.
  intros w y rest prev c k x Ww Len Wy Hx K. unfold ref_end. cbn [rmatch].
  rewrite rep_det by (intros q u t Hu; now rewrite hex_not_semi).
  assert (E : (if 1 <=? length (takewhile is_hex (w ++ y :: rest))
                 then match dropwhile is_hex (w ++ y :: rest) with
                      | [] => None
                      | u :: s' => if N.eqb c_semi u then k (Some u) s' c else None
                      end else None) = None).
  { destruct (1 <=? _); [|reflexivity].
    destruct (takewhile_dropwhile is_hex (w ++ y :: rest)) as [A B].
    destruct (dropwhile is_hex (w ++ y :: rest)) as [|u s']; [reflexivity|].
    destruct (N.eqb_spec c_semi u) as [<-|]; [|reflexivity]. exfalso. exact (Hx _ s' A B). }
  rewrite E. apply rep_greedy_bounded; auto; try lia.
  rewrite opt_none; [apply K|]. destruct (N.eqb_spec c_semi y) as [<-|]; [discriminate | reflexivity].
Qed.

Lemma ref_rest_x : forall x w v p k r, is_x x = true ->
  (forall q, rmatch ref_end q (w ++ v) [] k = Some r) ->
  rmatch ref_rest p ((x :: w) ++ v) [] k = Some r.
Proof.
  intros x w v p k r X H.
  change (rmatch ref_rest p ((x :: w) ++ v) [] k)
    with (rep_from is_x p (x :: w ++ v) [] (fun p s c => rmatch ref_end p s c k) 0 (Some 1)).
  apply opt_take; [assumption|]. apply H.
Qed.

Lemma x_before_cases : forall x w, x_before x w -> x = [] \/ exists y, x = [y] /\ is_x y = true.
Proof. intros x w [-> | [[-> | ->] _]]; [now left | right; eexists; split; reflexivity | right; eexists; split; reflexivity]. Qed.

Lemma ref_rest_take : forall w semi rest p k r, reference_text w semi rest ->
  (forall q, k q rest [] = Some r) -> rmatch ref_rest p (w ++ semi ++ rest) [] k = Some r.
Proof.
  intros w0 semi0 rest0 p k r H K. destruct H as [x w semi rest X Nw W S F | x w y rest X W Len Wy Nx Hx].
  - apply words_spec in W.
    assert (F' : length w <= 32 \/ forallb is_hex w = true) by (destruct F as [F|[_ F]]; [now left | right; now apply hexes_spec]).
    destruct (x_before_cases x w X) as [-> | (y & -> & Xy)].
    + cbn [app]. destruct S as [-> | [-> S]].
      * now apply (x_match w rest p [] k r).
      * apply ref_rest_bare; auto.
        -- destruct F as [F|[F _]]; [exact F | discriminate].
        -- now apply stops_spec.
    + cbn [app]. change (y :: w ++ semi ++ rest) with ((y :: w) ++ semi ++ rest). apply ref_rest_x; [assumption|].
      intros q. destruct S as [-> | [-> S]].
      * now apply ref_end_match.
      * apply ref_end_match_bare; auto.
        -- destruct F as [F|[F _]]; [exact F | discriminate].
        -- now apply stops_spec.
  - apply words_spec in W.
    assert (Hx' : forall numeral after, w ++ y :: rest = numeral ++ [c_semi] ++ after -> forallb is_hex numeral <> true).
    { intros n a E B. apply hexes_spec in B. exact (Hx n a E B). }
    assert (Wy' : is_word y = true) by now apply is_word_spec.
    destruct (x_before_cases x w X) as [-> | (u & -> & Xu)].
    + cbn [app]. destruct (Nx eq_refl) as [N1 N2]. destruct w as [|z w]; [discriminate|].
      change (rmatch ref_rest p ((z :: w) ++ y :: rest) [] k)
        with (rep_from is_x p (z :: w ++ y :: rest) [] (fun p s c => rmatch ref_end p s c k) 0 (Some 1)).
      rewrite opt_skip.
      * now apply (ref_end_cut (z :: w)).
      * destruct (is_x z) eqn:Z; [|reflexivity]. apply x_cases in Z. cbn [hd_error] in N1, N2.
        destruct Z as [-> | ->]; [now destruct N1 | now destruct N2].
    + change (([u] ++ w) ++ [] ++ y :: rest) with ((u :: w) ++ y :: rest). apply ref_rest_x; [assumption|].
      intros q. now apply ref_end_cut.
Qed.

Lemma reference_word : forall w semi rest, reference_text w semi rest ->
  w <> [] /\ forallb is_word w = true /\ (semi = [] \/ semi = [c_semi]).
Proof.
  intros w0 semi0 rest0 H. destruct H as [x w semi rest X Nw W S F | x w y rest X W Len Wy Nx Hx].
  - apply words_spec in W.
    assert (Sm : semi = [] \/ semi = [c_semi]) by (destruct S as [-> | [-> _]]; auto).
    destruct (x_before_cases x w X) as [-> | (y & -> & Xy)]; cbn [app].
    + auto.
    + split; [discriminate | split; [|exact Sm]]. cbn [forallb]. rewrite W. now rewrite (x_word y Xy).
  - apply words_spec in W. destruct (x_before_cases x w X) as [-> | (u & -> & Xu)]; cbn [app].
    + split; [destruct w; discriminate | auto].
    + split; [discriminate | split; [|now left]]. cbn [forallb]. rewrite W. now rewrite (x_word u Xu).
Qed.

Lemma unescape_take : forall h w semi rest, h = [] \/ h = [c_hash] -> reference_text w semi rest ->
  unescape ([c_amp] ++ h ++ w ++ semi ++ rest) =
  rbind (replace_entity (h ++ w ++ semi)) (fun t => rmap (app t) (unescape rest)).
Proof.
  intros h w semi rest Hh H. destruct (reference_word _ _ _ H) as (Nw & Ww & Sm).
  assert (M : match_at unescape_re None ([c_amp] ++ (h ++ w ++ semi) ++ rest) = Some (rest, [(1, h ++ w ++ semi)])).
  { unfold match_at. rewrite unescape_re_eq.
    pose proof (firstn_app_sub _ (h ++ w ++ semi) rest) as F.
    set (k := fun (p' : option N) (s' : str) (c' : caps) => Some (s', (1,
            firstn (length ((h ++ w ++ semi) ++ rest) - length s') ((h ++ w ++ semi) ++ rest)) :: c')).
    transitivity (rep_from (N.eqb c_hash) (Some c_amp) ((h ++ w ++ semi) ++ rest) []
                    (fun p s c => rmatch ref_rest p s c k) 0 (Some 1)); [reflexivity|].
    assert (K : forall q, k q rest [] = Some (rest, [(1, h ++ w ++ semi)])) by (intros q; unfold k; now rewrite F).
    clearbody k. rewrite <- !app_assoc. destruct Hh as [-> | ->].
    - cbn [app]. destruct w as [|y w]; [contradiction|]. cbn [app]. rewrite opt_skip.
      + now apply (ref_rest_take (y :: w)).
      + cbn [forallb] in Ww. apply andb_true_iff in Ww as [Wy _]. now apply word_not_hash.
    - cbn [app]. apply opt_take; [reflexivity|]. now apply ref_rest_take. }
  rewrite !unescape_unesc. unfold unesc.
  replace ([c_amp] ++ h ++ w ++ semi ++ rest) with ([c_amp] ++ (h ++ w ++ semi) ++ rest) by now rewrite <- !app_assoc.
  rewrite app_assoc in *.
  rewrite (sub_hit _ _ _ rest [(1, h ++ w ++ semi)] None unescape_no_bol); [reflexivity | discriminate | exact M].
Qed.

Lemma number_take : forall w semi rest, reference_text w semi rest ->
  unescape ([c_amp; c_hash] ++ w ++ semi ++ rest) =
  match word_number w with
  | None => rmap (app ([c_amp; c_hash] ++ w ++ semi)) (unescape rest)
  | Some n => numeric ([c_amp; c_hash] ++ w ++ semi) n (unescape rest)
  end.
Proof.
  intros w semi rest H. destruct (reference_word _ _ _ H) as (Nw & Ww & Sm).
  pose proof (unescape_take [c_hash] w semi rest (or_intror eq_refl) H) as U.
  change ([c_amp; c_hash] ++ w ++ semi ++ rest) with ([c_amp] ++ [c_hash] ++ w ++ semi ++ rest).
  rewrite U, replace_word by assumption.
  destruct (word_number w) as [n|]; [apply chr_numeric | reflexivity].
Qed.

(** Names. *)
Lemma name_take : forall w semi rest, reference_text w semi rest ->
  (forall v, stands_for (w ++ semi) v ->
     unescape ([c_amp] ++ w ++ semi ++ rest) = rmap (app v) (unescape rest)) /\
  ((forall v, ~ stands_for (w ++ semi) v) ->
     (forall start more v, semi = [] -> w = start ++ more -> stands_for start v ->
        unescape ([c_amp] ++ w ++ semi ++ rest) = rmap (app (v ++ more)) (unescape rest)) /\
     ((forall start more v, semi = [] -> w = start ++ more -> ~ stands_for start v) ->
        unescape ([c_amp] ++ w ++ semi ++ rest) = rmap (app ([c_amp] ++ w ++ semi)) (unescape rest))).
Proof.
  intros w semi rest H. destruct (reference_word _ _ _ H) as (Nw & Ww & Sm).
  pose proof (unescape_take [] w semi rest (or_introl eq_refl) H) as U. cbn [app] in U.
  destruct w as [|y w]; [contradiction|].
  assert (R : replace_entity ((y :: w) ++ semi) =
    match assoc ((y :: w) ++ semi) html5 with
    | Some v => Ok v
    | None => if suffixb [c_semi] ((y :: w) ++ semi) then Ok ([c_amp] ++ (y :: w) ++ semi)
              else Ok (try_prefixes ((y :: w) ++ semi) (seq 2 (length ((y :: w) ++ semi) - 2)))
    end).
  { unfold replace_entity. cbn [app]. pose proof Ww as W0. cbn [forallb] in W0. apply andb_true_iff in W0 as [Wy _].
    apply word_not_hash in Wy. now rewrite N.eqb_sym, Wy. }
  assert (U' : unescape ([c_amp] ++ (y :: w) ++ semi ++ rest) =
               rbind (replace_entity ((y :: w) ++ semi)) (fun t => rmap (app t) (unescape rest))) by exact U.
  rewrite U', R. clear U U' R. remember (y :: w) as u eqn:Eu. clear Eu. split; [|intros N; split].
  - intros v V. now rewrite (table_assoc _ _ V).
  - intros start more v -> E V. rewrite app_nil_r in *.
    destruct (assoc u html5) as [v'|] eqn:A; [exfalso; apply assoc_In in A; eapply N; exact A|].
    rewrite no_semi_suffix by assumption. cbn [rbind]. do 2 f_equal.
    rewrite E in Ww. rewrite forallb_app in Ww. apply andb_true_iff in Ww as [Ws Wm].
    pose proof (word_bare _ Ws) as B. rewrite E in A |- *. clear E.
    assert (L2 : 2 <= length start).
    { pose proof bare_length as F. rewrite forallb_forall in F. specialize (F _ V). cbn [fst] in F. rewrite B in F.
      now apply Nat.leb_le in F. }
    destruct more as [|c t]; [rewrite app_nil_r, (table_assoc _ _ V) in A; discriminate|].
    rewrite (try_prefixes_first (start ++ c :: t) _ 2 (length start) v).
    + rewrite skipn_app, skipn_all, Nat.sub_diag. reflexivity.
    + assumption.
    + rewrite app_length. cbn [length]. lia.
    + intros z A1 A2. rewrite firstn_app. replace (z - length start) with 0 by lia. cbn [firstn]. rewrite app_nil_r.
      eapply no_shorter; eauto; lia.
    + rewrite firstn_app, firstn_all, Nat.sub_diag. cbn [firstn]. rewrite app_nil_r. now apply table_assoc.
  - intros P. destruct (assoc (u ++ semi) html5) as [v'|] eqn:A; [exfalso; apply assoc_In in A; eapply N; exact A|].
    destruct Sm as [-> | ->].
    + rewrite app_nil_r in *. rewrite no_semi_suffix by assumption. cbn [rbind]. do 2 f_equal.
      apply try_prefixes_none. intros x _.
      destruct (assoc (firstn x u) html5) as [v|] eqn:B; [|reflexivity]. apply assoc_In in B.
      exfalso. eapply (P (firstn x u) (skipn x u)); [reflexivity | now rewrite firstn_skipn | exact B].
    + assert (S : suffixb [c_semi] (u ++ [c_semi]) = true) by (apply suffixb_spec; eauto).
      now rewrite S.
Qed.

(** Every text that starts with a letter, a digit or an underscore starts with one. *)
Lemma reference_exists : forall y s, is_word y = true ->
  exists w semi rest, y :: s = w ++ semi ++ rest /\ reference_text w semi rest.
Proof.
  assert (G : forall x s, x_before x s -> (x = [] -> match s with z :: _ => is_x z = false \/ (match s with [_] => True | _ :: u :: _ => is_word u = false | [] => False end) | [] => False end) ->
    (match s with z :: _ => is_word z = true | [] => False end) ->
    exists w semi rest, x ++ s = w ++ semi ++ rest /\ reference_text w semi rest).
  { intros x s X Nx Ws. destruct (takewhile_dropwhile is_word s) as [A B].
    set (w := takewhile is_word s) in *. set (v := dropwhile is_word s) in *.
    assert (Nw : w <> []) by (unfold w; destruct s as [|z s]; [contradiction|]; cbn [takewhile]; rewrite Ws; discriminate).
    assert (Xw : forall w', w' <> [] -> x_before x w').
    { intros w' N'. destruct X as [X|[X _]]; [now left | right; auto]. }
    assert (Sv : match v with [] => True | z :: _ => is_word z = false end).
    { unfold v. clear. induction s as [|z s IH]; [exact I|]. cbn [dropwhile]. destruct (is_word z) eqn:E; [exact IH | exact E]. }
    destruct (takewhile_dropwhile is_hex s) as [C D].
    destruct (le_lt_dec (length w) 32) as [Len|Len].
    - destruct v as [|z v'].
      + exists (x ++ w), [], []. split; [rewrite app_nil_r in A; cbn [app]; rewrite app_nil_r; f_equal; exact A|].
        apply whole_word; [auto | exact Nw | now apply words_spec | right; split; [reflexivity | exact I] | now left].
      + destruct (N.eq_dec z c_semi) as [->|Nz].
        * exists (x ++ w), [c_semi], v'. split; [rewrite <- app_assoc; cbn [app]; f_equal; exact A|].
          apply whole_word; [auto | exact Nw | now apply words_spec | now left | now left].
        * exists (x ++ w), [], (z :: v'). split; [rewrite <- app_assoc; cbn [app]; f_equal; exact A|].
          apply whole_word; [auto | exact Nw | now apply words_spec | right; split; [reflexivity|] | now left].
          split; [|exact Nz]. intros Az. apply is_word_spec in Az. congruence.
    - assert (Hsemi : (exists numeral after, s = numeral ++ [c_semi] ++ after /\ forallb is_hex numeral = true) \/
                      (forall numeral after, s = numeral ++ [c_semi] ++ after -> forallb is_hex numeral <> true)).
      { destruct (dropwhile is_hex s) as [|z t] eqn:Ed.
        - right. intros n a E F. rewrite E, dropwhile_app_all in Ed by assumption. discriminate Ed.
        - destruct (N.eq_dec z c_semi) as [->|Nz].
          + left. exists (takewhile is_hex s), t. auto.
          + right. intros n a E F. rewrite E, dropwhile_app_all in Ed by assumption. apply Nz.
            change (c_semi :: a = z :: t) in Ed. congruence. }
      destruct Hsemi as [(n & a & E & F)|Hs].
      + assert (Nn : n <> []).
        { intros ->. destruct s as [|z s']; [contradiction|]. cbn [app] in E. assert (z = c_semi) by congruence. subst z. discriminate Ws. }
        exists (x ++ n), [c_semi], a. split; [rewrite <- app_assoc; now rewrite E|].
        apply whole_word; [auto | exact Nn | apply words_spec; now apply forallb_hex_word | now left | right; split; [reflexivity | now apply hexes_spec]].
      + assert (Es : w = firstn 32 w ++ skipn 32 w) by now rewrite firstn_skipn.
        destruct (skipn 32 w) as [|y t] eqn:Sk.
        { exfalso. apply (f_equal (@length N)) in Sk. rewrite skipn_length in Sk. cbn [length] in Sk. lia. }
        assert (Ww : forallb is_word (firstn 32 w) = true /\ is_word y = true).
        { rewrite Es, forallb_app in B. apply andb_true_iff in B as [B1 B2]. cbn [forallb] in B2.
          apply andb_true_iff in B2 as [B2 _]. auto. }
        assert (L32 : length (firstn 32 w) = 32) by (rewrite firstn_length; lia).
        assert (A' : s = firstn 32 w ++ y :: (t ++ v)).
        { rewrite A at 1. rewrite Es at 1. rewrite <- app_assoc. reflexivity. }
        exists (x ++ firstn 32 w), [], (y :: (t ++ v)).
        split; [rewrite <- app_assoc; cbn [app]; now rewrite <- A'|].
        apply cut_word; auto.
        * apply Xw. intros N0. rewrite N0 in L32. discriminate L32.
        * apply words_spec. tauto.
        * apply is_word_spec. tauto.
        * intros Ex. specialize (Nx Ex). rewrite A' in Nx.
          destruct (firstn 32 w) as [|z1 [|z2 zs]] eqn:Ef; [discriminate L32 | discriminate L32|].
          cbn [app] in Nx. cbn [hd_error].
          assert (Z2 : is_word z2 = true).
          { destruct Ww as [Ww _]. cbn [forallb] in Ww. apply andb_true_iff in Ww as [_ Ww]. now apply andb_true_iff in Ww. }
          destruct Nx as [Nx|Nx]; [|congruence]. split; intros E; assert (Z : is_x z1 = true) by (apply x_cases; injection E; auto); congruence.
        * intros n a E F. apply hexes_spec in F. rewrite <- A' in E. exact (Hs n a E F). }
  intros y s Wy. destruct (is_x y) eqn:X.
  - destruct s as [|u s'] eqn:Es; [|destruct (is_word u) eqn:U].
    + apply (G [] [y]); [now left | right; exact I | exact Wy].
    + apply (G [y] (u :: s')); [|discriminate | exact U].
      right. split; [|discriminate]. apply x_cases in X. destruct X as [-> | ->]; auto.
    + apply (G [] (y :: u :: s')); [now left | right; exact U | exact Wy].
  - apply (G [] (y :: s)); [now left | left; exact X | exact Wy].
Qed.
