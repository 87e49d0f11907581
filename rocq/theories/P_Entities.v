(** * Proofs about character references *)

From Coq Require Import Ascii String List NArith ZArith Bool Lia Arith.
From Verif Require Import PyStr PyStrLemmas Regex RegexLemmas M_Html5 M_Entities S_Entities.
Import ListNotations.
Open Scope list_scope.

(** ** Matching a reference *)

Definition ref_end : re :=
  RAlt (RSeq (RRep 1 None is_hex) (RChr (N.eqb c_semi)))
       (RSeq (RRep 1 (Some 32) is_word) (RRep 0 (Some 1) (N.eqb c_semi))).

Lemma hex_word : forall c, is_hex c = true -> is_word c = true.
Proof. intros c. unfold is_hex, is_word. destruct (digit c); [reflexivity | discriminate]. Qed.


Lemma hex_not_semi : forall c, is_hex c = true -> N.eqb c_semi c = false.
Proof. intros c H. apply N.eqb_neq. intros <-. discriminate H. Qed.

Lemma hex_not_x : forall c, is_hex c = true -> is_x c = false.
Proof.
  intros c H. unfold is_x. apply orb_false_iff. split; apply N.eqb_neq; intros ->; discriminate H.
Qed.

Lemma x_word : forall c, is_x c = true -> is_word c = true.
Proof. intros c H. unfold is_x in H. apply orb_true_iff in H as [H|H]; apply N.eqb_eq in H; subst; reflexivity. Qed.

Lemma word_not_hash : forall c, is_word c = true -> N.eqb c_hash c = false.
Proof. intros c H. apply N.eqb_neq. intros <-. discriminate H. Qed.

Lemma ref_end_match : forall w rest prev c k x, w <> [] ->
  forallb is_word w = true -> (length w <= 32 \/ forallb is_hex w = true) ->
  (forall q, k q rest c = Some x) ->
  rmatch ref_end prev (w ++ [c_semi] ++ rest) c k = Some x.
Proof.
  intros w rest prev c k x Nw Ww Len K. unfold ref_end. cbn [rmatch].
  rewrite rep_det by (intros q y t Hy; now rewrite hex_not_semi).
  destruct (forallb is_hex w) eqn:Hw.
  - rewrite takewhile_app_all, dropwhile_app_all by assumption.
    change (takewhile is_hex ([c_semi] ++ rest)) with (@nil N).
    change (dropwhile is_hex ([c_semi] ++ rest)) with (c_semi :: rest).
    rewrite app_nil_r. destruct w as [|y w]; [contradiction|]. cbn [length Nat.leb].
    rewrite N.eqb_refl, K. reflexivity.
  - destruct Len as [Len|Len]; [|discriminate].
    assert (E : (if 1 <=? length (takewhile is_hex (w ++ [c_semi] ++ rest))
                 then match dropwhile is_hex (w ++ [c_semi] ++ rest) with
                      | [] => None
                      | y :: s' => if N.eqb c_semi y then k (Some y) s' c else None
                      end else None) = None).
    { destruct (1 <=? _); [|reflexivity].
      assert (D : exists y t, dropwhile is_hex (w ++ [c_semi] ++ rest) = y :: t /\ is_word y = true).
      { clear - Hw Ww. induction w as [|y w IH]; [discriminate|]. cbn [forallb] in Hw, Ww.
        apply andb_true_iff in Ww as [Wy Ww]. cbn [app dropwhile]. destruct (is_hex y) eqn:Hy; [apply IH; assumption|].
        eauto. }
      destruct D as (y & t & -> & Wy). destruct (N.eqb_spec c_semi y) as [<-|]; [discriminate | reflexivity]. }
    rewrite E. apply rep_greedy_bounded; auto.
    + destruct w; [contradiction | cbn; lia].
    + right. reflexivity.
    + cbn [app rep_from option_map pred]. rewrite N.eqb_refl.
      destruct rest; cbn [rep_from]; now rewrite K.
Qed.


Lemma unescape_re_eq : unescape_re =
  RSeq (RChr (N.eqb c_amp)) (RGrp 1 (RSeq (RRep 0 (Some 1) (N.eqb c_hash)) (RSeq (RRep 0 (Some 1) is_x) ref_end))).
Proof. reflexivity. Qed.

Lemma unescape_no_bol : no_bol unescape_re = true.
Proof. reflexivity. Qed.

Lemma x_match : forall w rest prev c k x, w <> [] ->
  forallb is_word w = true -> (length w <= 32 \/ forallb is_hex w = true) ->
  (forall q, k q rest c = Some x) ->
  rmatch (RSeq (RRep 0 (Some 1) is_x) ref_end) prev (w ++ c_semi :: rest) c k = Some x.
Proof.
  intros w rest prev c k x Nw Ww Len K.
  change (rmatch (RSeq (RRep 0 (Some 1) is_x) ref_end) prev (w ++ c_semi :: rest) c k)
    with (rep_from is_x prev (w ++ c_semi :: rest) c (fun p s c => rmatch ref_end p s c k) 0 (Some 1)).
  destruct w as [|y w]; [contradiction|]. cbn [app rep_from option_map pred].
  destruct (is_x y) eqn:Xy.
  - assert (E : rep_from is_x (Some y) (w ++ c_semi :: rest) c (fun p s c => rmatch ref_end p s c k) 0 (Some 0)
             = rmatch ref_end (Some y) (w ++ c_semi :: rest) c k).
    { destruct (w ++ c_semi :: rest); reflexivity. }
    rewrite E. destruct w as [|z w].
    + change (rmatch ref_end (Some y) ([] ++ c_semi :: rest) c k) with (@None rest_caps). apply (ref_end_match [y]); auto. 
    + cbn [forallb] in Ww. apply andb_true_iff in Ww as [Wy Ww].
      assert (E2 : rmatch ref_end (Some y) ((z :: w) ++ c_semi :: rest) c k = Some x); [|rewrite E2; reflexivity].
      apply (ref_end_match (z :: w)); auto; try discriminate.
      destruct Len as [Len|Len]; [left; cbn in *; lia|].
      cbn [forallb] in Len. apply andb_true_iff in Len as [Hy _]. apply hex_not_x in Hy. congruence.
  - apply (ref_end_match (y :: w)); auto.
Qed.

Lemma firstn_app_sub : forall A (a b : list A), firstn (length (a ++ b) - length b) (a ++ b) = a.
Proof.
  intros. rewrite app_length. replace (length a + length b - length b) with (length a) by lia.
  rewrite firstn_app, firstn_all, Nat.sub_diag. cbn. apply app_nil_r.
Qed.

Definition ref_rest : re := RSeq (RRep 0 (Some 1) is_x) ref_end.

Lemma opt_skip : forall p y s prev c k, p y = false ->
  rep_from p prev (y :: s) c k 0 (Some 1) = k prev (y :: s) c.
Proof. intros p y s prev c k H. cbn [rep_from]. now rewrite H. Qed.

Lemma opt_take : forall p y s prev c k x, p y = true -> k (Some y) s c = Some x ->
  rep_from p prev (y :: s) c k 0 (Some 1) = Some x.
Proof.
  intros p y s prev c k x H K. cbn [rep_from option_map pred]. rewrite H.
  destruct s; cbn [rep_from]; rewrite K; reflexivity.
Qed.

Lemma hash_match : forall h w rest prev c k x, h = [] \/ h = [c_hash] -> w <> [] ->
  forallb is_word w = true -> (length w <= 32 \/ forallb is_hex w = true) ->
  (forall q, k q rest c = Some x) ->
  rep_from (N.eqb c_hash) prev (h ++ w ++ [c_semi] ++ rest) c (fun p s c => rmatch ref_rest p s c k) 0 (Some 1) = Some x.
Proof.
  intros h w rest prev c k x [-> | ->] Nw Ww Len K.
  - destruct w as [|y w]; [contradiction|]. cbn [app]. rewrite opt_skip.
    + apply (x_match (y :: w)); auto.
    + cbn [forallb] in Ww. apply andb_true_iff in Ww as [Wy _]. now apply word_not_hash.
  - apply opt_take; [reflexivity|]. now apply x_match.
Qed.

Lemma ref_match : forall h w rest, h = [] \/ h = [c_hash] -> w <> [] ->
  forallb is_word w = true -> (length w <= 32 \/ forallb is_hex w = true) ->
  match_at unescape_re None ([c_amp] ++ (h ++ w ++ [c_semi]) ++ rest) = Some (rest, [(1, h ++ w ++ [c_semi])]).
Proof.
  intros h w rest Hh Nw Ww Len. unfold match_at. rewrite unescape_re_eq.
  pose proof (firstn_app_sub _ (h ++ w ++ [c_semi]) rest) as F. rewrite <- !app_assoc in *.
  apply (hash_match h w rest (Some c_amp) [] (fun p' s' c' => Some (s', (1,
            firstn (length (h ++ w ++ [c_semi] ++ rest) - length s') (h ++ w ++ [c_semi] ++ rest)) :: c')));
    auto.
  intros _. now rewrite F.
Qed.

(** ** The whole of [unescape] *)

Definition on_group (c : list (nat * list N)) : result str :=
  match List.find (fun p => Nat.eqb (fst p) 1) c with
  | Some (_, g) => replace_entity g
  | None => Raise "IndexError"
  end.

Lemma match_amp : forall y s, y <> c_amp -> match_at unescape_re None (y :: s) = None.
Proof.
  intros y s N. unfold match_at. rewrite unescape_re_eq.
  change (rmatch (RSeq (RChr (N.eqb c_amp)) (RGrp 1 (RSeq (RRep 0 (Some 1) (N.eqb c_hash))
            (RSeq (RRep 0 (Some 1) is_x) ref_end)))) None (y :: s) [] (fun _ s' c => Some (s', c)))
    with (if N.eqb c_amp y then rmatch (RGrp 1 (RSeq (RRep 0 (Some 1) (N.eqb c_hash))
            (RSeq (RRep 0 (Some 1) is_x) ref_end))) (Some y) s [] (fun _ s' c => Some (s', c)) else None).
  destruct (N.eqb_spec c_amp y); [congruence | reflexivity].
Qed.

Definition unesc (s : str) : result str := sub_from unescape_re on_group None 0 s.

Lemma unesc_plain : forall a s, ~ In c_amp a -> unesc (a ++ s) = rmap (app a) (unesc s).
Proof.
  intros a s. induction a as [|y a IH]; intros N.
  - cbn [app]. unfold rmap. now destruct (unesc s).
  - unfold unesc. cbn [app]. rewrite sub_pass.
    + fold (unesc (a ++ s)). rewrite IH by (intros X; apply N; now right). fold (unesc s). unfold rmap.
      now destruct (unesc s).
    + exact unescape_no_bol.
    + apply match_amp. intros ->. apply N. now left.
Qed.

Lemma unescape_unesc : forall s, unescape s = unesc s.
Proof.
  intros s. unfold unescape. destruct (cmem c_amp s) eqn:E; [reflexivity|].
  rewrite <- (app_nil_r s) at 2. rewrite unesc_plain.
  - cbn. now rewrite app_nil_r.
  - intros I. apply cmem_In in I. congruence.
Qed.

Lemma unescape_plain : forall a s, ~ In c_amp a -> unescape (a ++ s) = rmap (app a) (unescape s).
Proof. intros. rewrite !unescape_unesc. now apply unesc_plain. Qed.

Lemma unescape_ref : forall h w rest, h = [] \/ h = [c_hash] -> w <> [] ->
  forallb is_word w = true -> (length w <= 32 \/ forallb is_hex w = true) ->
  unescape ([c_amp] ++ (h ++ w ++ [c_semi]) ++ rest) =
  rbind (replace_entity (h ++ w ++ [c_semi])) (fun t => rmap (app t) (unescape rest)).
Proof.
  intros h w rest Hh Nw Ww Len. rewrite !unescape_unesc. unfold unesc.
  pose proof (ref_match h w rest Hh Nw Ww Len) as M.
  rewrite app_assoc in *. rewrite (sub_hit _ _ _ rest [(1, h ++ w ++ [c_semi])] None unescape_no_bol).
  - reflexivity.
  - discriminate.
  - exact M.
Qed.

(** ** Names *)

Lemma assoc_In : forall k d v, assoc k d = Some v -> In (k, v) d.
Proof.
  intros k d v. induction d as [|[k' v'] d IH]; [discriminate|]. cbn [assoc].
  destruct (seqb_spec k k') as [->|N]; [intros [= ->]; now left | intros H; right; auto].
Qed.


(** The names are sorted up to case in the file; that they differ is checked by looking
    each one up. *)
Definition first_is_itself : bool :=
  forallb (fun kv => match assoc (fst kv) html5 with Some v => seqb v (snd kv) | None => false end) html5.
Lemma first_is_itself_true : first_is_itself = true.
Proof. vm_cast_no_check (eq_refl true). Qed.

Lemma table_assoc : forall k v, stands_for k v -> assoc k html5 = Some v.
Proof.
  intros k v H. pose proof first_is_itself_true as F. unfold first_is_itself in F.
  rewrite forallb_forall in F. specialize (F (k, v) H). cbn [fst snd] in F.
  destruct (assoc k html5) as [v'|]; [|discriminate]. apply seqb_eq in F. now subst.
Qed.

(** Names are words of at most 32 characters, with or without a semicolon. *)
Definition name_ok (k : str) : bool :=
  let w := match rev k with c :: w => if N.eqb c c_semi then rev w else k | [] => k end in
  forallb is_word w && (1 <=? length w) && (length w <=? 32).
Lemma names_ok : forallb (fun kv => name_ok (fst kv)) html5 = true.
Proof. vm_cast_no_check (eq_refl true). Qed.

Lemma table_name : forall w v, stands_for (w ++ [c_semi]) v ->
  w <> [] /\ forallb is_word w = true /\ length w <= 32.
Proof.
  intros w v H. pose proof names_ok as F. rewrite forallb_forall in F. specialize (F _ H). cbn [fst] in F.
  unfold name_ok in F. rewrite rev_app_distr in F. cbn [rev app] in F. rewrite N.eqb_refl, rev_involutive in F.
  apply andb_true_iff in F as [F L2]. apply andb_true_iff in F as [W L1].
  apply Nat.leb_le in L1. apply Nat.leb_le in L2. repeat split; auto. intros ->. cbn in L1. lia.
Qed.

Lemma replace_entity_name : forall w v, stands_for (w ++ [c_semi]) v -> replace_entity (w ++ [c_semi]) = Ok v.
Proof.
  intros w v H. destruct (table_name w v H) as (N & W & _). destruct w as [|y w]; [contradiction|].
  cbn [app]. cbn [forallb] in W. apply andb_true_iff in W as [Wy _]. apply word_not_hash in Wy.
  unfold replace_entity. rewrite N.eqb_sym, Wy.
  change (y :: w ++ [c_semi]) with ((y :: w) ++ [c_semi]). now rewrite (table_assoc _ _ H).
Qed.

Lemma unescape_name : forall w v rest, stands_for (w ++ [c_semi]) v ->
  unescape ([c_amp] ++ (w ++ [c_semi]) ++ rest) = rmap (app v) (unescape rest).
Proof.
  intros w v rest H. destruct (table_name w v H) as (N & W & Le).
  pose proof (unescape_ref [] w rest (or_introl eq_refl) N W (or_introl Le)) as U. cbn [app] in U |- *.
  rewrite U. now rewrite (replace_entity_name w v H).
Qed.

(** ** Round trip *)

Lemma sax_escape_eq : forall s, sax_escape s = xml_text s.
Proof.
  intros s. unfold sax_escape, xml_text.
  change (L "<") with [c_lt]. change (L ">") with [c_gt]. change (L "&") with [c_amp].
  rewrite !replace_single. induction s as [|y s IH]; [reflexivity|].
  cbn [flat_map]. rewrite !flat_map_app, IH. f_equal.
  destruct (N.eqb_spec y c_amp) as [->|N1]; [reflexivity|].
  destruct (N.eqb_spec y c_gt) as [->|N2]; [reflexivity|].
  destruct (N.eqb_spec y c_lt) as [->|N3]; [reflexivity|].
  cbn [flat_map app]. rewrite (proj2 (N.eqb_neq y c_gt)) by assumption.
  cbn [flat_map app]. rewrite (proj2 (N.eqb_neq y c_lt)) by assumption. reflexivity.
Qed.

Lemma stands_by_assoc : forall k v, assoc k html5 = Some v -> stands_for k v.
Proof. intros k v H. now apply assoc_In. Qed.

Lemma round_trip : forall t, unescape (sax_escape t) = Ok t.
Proof.
  intros t. rewrite sax_escape_eq. induction t as [|y t IH]; [reflexivity|].
  change (xml_text (y :: t)) with ((if N.eqb y c_amp then L "&amp;" else if N.eqb y c_lt then L "&lt;"
                     else if N.eqb y c_gt then L "&gt;" else [y]) ++ xml_text t).
  destruct (N.eqb_spec y c_amp) as [->|N1].
  { change (L "&amp;" ++ xml_text t) with ([c_amp] ++ (L "amp" ++ [c_semi]) ++ xml_text t).
    rewrite (unescape_name (L "amp") [c_amp]) by (apply stands_by_assoc; vm_compute; reflexivity).
    now rewrite IH. }
  destruct (N.eqb_spec y c_lt) as [->|N2].
  { change (L "&lt;" ++ xml_text t) with ([c_amp] ++ (L "lt" ++ [c_semi]) ++ xml_text t).
    rewrite (unescape_name (L "lt") [c_lt]) by (apply stands_by_assoc; vm_compute; reflexivity).
    now rewrite IH. }
  destruct (N.eqb_spec y c_gt) as [->|N3].
  { change (L "&gt;" ++ xml_text t) with ([c_amp] ++ (L "gt" ++ [c_semi]) ++ xml_text t).
    rewrite (unescape_name (L "gt") [c_gt]) by (apply stands_by_assoc; vm_compute; reflexivity).
    now rewrite IH. }
  rewrite unescape_plain; [now rewrite IH|]. intros [E|[]]. symmetry in E. auto.
Qed.

(** ** Numbers *)

Lemma dec_hex_char : forall d c, dec_char d c -> hex_char d c.
Proof. intros d c [A B]. left. auto. Qed.

Lemma hex_char_digit : forall d c, hex_char d c -> digit c = Some d /\ c <> c_us /\ is_hex c = true.
Proof.
  intros d c H. unfold is_hex.
  assert (D : digit c = Some d).
  { unfold digit. destruct H as [[A ->]|[A [-> | ->]]].
    - replace ((48 <=? 48 + d) && (48 + d <=? 57))%N with true by (symmetry; apply andb_true_iff; split; apply N.leb_le; lia).
      f_equal. lia.
    - replace ((48 <=? 87 + d) && (87 + d <=? 57))%N with false
        by (symmetry; apply andb_false_iff; right; apply N.leb_gt; lia).
      replace ((97 <=? 87 + d) && (87 + d <=? 122))%N with true by (symmetry; apply andb_true_iff; split; apply N.leb_le; lia).
      f_equal. lia.
    - replace ((48 <=? 55 + d) && (55 + d <=? 57))%N with false
        by (symmetry; apply andb_false_iff; right; apply N.leb_gt; lia).
      replace ((97 <=? 55 + d) && (55 + d <=? 122))%N with false
        by (symmetry; apply andb_false_iff; left; apply N.leb_gt; lia).
      replace ((65 <=? 55 + d) && (55 + d <=? 90))%N with true by (symmetry; apply andb_true_iff; split; apply N.leb_le; lia).
      f_equal. lia. }
  rewrite D. repeat split.
  - intros ->. discriminate D.
  - apply N.ltb_lt. destruct H as [[A _]|[[_ A] _]]; lia.
Qed.

Lemma int_digits_value : forall base ds cs, Forall2 hex_char ds cs -> Forall (fun d => d < base)%N ds ->
  forall gap acc, (ds <> [] \/ gap = false) ->
  int_digits base gap acc cs = Some (fold_left (fun a d => a * base + d)%N ds acc).
Proof.
  intros base ds cs H B. induction H as [|d c ds cs Hc H IH]; intros gap acc N.
  - destruct N as [N|N]; [contradiction|]. now rewrite N.
  - inversion B as [|? ? Bd Bs]. destruct (hex_char_digit d c Hc) as (D & U & _).
    cbn [int_digits fold_left]. destruct (N.eqb_spec c c_us); [contradiction|]. rewrite D.
    destruct (N.ltb_spec d base); [|lia]. apply IH; auto.
Qed.

Lemma numeral_hex : forall ds cs, Forall2 hex_char ds cs -> forallb is_hex cs = true.
Proof.
  intros ds cs H. induction H as [|d c ds cs Hc H IH]; [reflexivity|].
  cbn [forallb]. rewrite IH. now rewrite (proj2 (proj2 (hex_char_digit d c Hc))).
Qed.

Lemma forallb_hex_word : forall cs, forallb is_hex cs = true -> forallb is_word cs = true.
Proof. intros cs H. rewrite forallb_forall in *. intros x I. apply hex_word. auto. Qed.

Lemma rstrip_semi : forall cs, forallb is_word cs = true -> rstrip_c c_semi (cs ++ [c_semi]) = cs.
Proof.
  intros cs H. unfold rstrip_c. rewrite rev_app_distr. cbn [rev app dropwhile]. rewrite N.eqb_refl.
  assert (E : dropwhile (N.eqb c_semi) (rev cs) = rev cs).
  { destruct (rev cs) as [|y r] eqn:R; [reflexivity|]. apply dropwhile_none.
    rewrite forallb_forall in H. specialize (H y). apply N.eqb_neq. intros <-.
    assert (I : In c_semi cs) by (apply in_rev; rewrite R; now left). specialize (H I). discriminate. }
  rewrite E. apply rev_involutive.
Qed.

Lemma int16_digits : forall ds cs, Forall2 hex_char ds cs -> int16 cs = int_digits 16 true 0 cs.
Proof.
  intros ds cs H. unfold int16. destruct cs as [|z [|x cs]]; auto.
  inversion H as [|d1 ? ds1 ? A1 A2]. inversion A2 as [|d2 ? ds2 ? A3 A4].
  destruct (hex_char_digit _ _ A3) as (_ & _ & X). apply hex_not_x in X. unfold is_x in X.
  rewrite X, andb_false_r. reflexivity.
Qed.

Lemma chr_numeric : forall n reference rest,
  rbind (rmap (fun o => match o with Some t => t | None => reference end) (chr n))
        (fun t => rmap (app t) rest) = numeric reference n rest.
Proof.
  intros n reference rest. unfold chr, numeric.
  destruct (N.leb_spec n 1114111), (N.ltb_spec n 1114112); try lia; [reflexivity|].
  destruct (N.leb_spec n 2147483647), (N.ltb_spec n 2147483648); try lia; reflexivity.
Qed.

Lemma dec_ref : forall ds cs rest, Forall2 dec_char ds cs -> ds <> [] ->
  unescape ([c_amp; c_hash] ++ cs ++ [c_semi] ++ rest) =
  numeric ([c_amp; c_hash] ++ cs ++ [c_semi]) (value 10 ds) (unescape rest).
Proof.
  intros ds cs rest H N.
  assert (H16 : Forall2 hex_char ds cs) by (clear - H; induction H; constructor; auto using dec_hex_char).
  assert (Hd : Forall (fun d => d < 10)%N ds) by (clear - H; induction H as [|d c ds cs [A _] H IH]; constructor; auto).
  pose proof (numeral_hex _ _ H16) as Hx. pose proof (forallb_hex_word _ Hx) as Hw.
  assert (Nc : cs <> []) by (intros ->; inversion H; subst; contradiction).
  pose proof (unescape_ref [c_hash] cs rest (or_intror eq_refl) Nc Hw (or_intror Hx)) as U.
  replace ([c_amp; c_hash] ++ cs ++ [c_semi] ++ rest) with ([c_amp] ++ ([c_hash] ++ cs ++ [c_semi]) ++ rest)
    by (cbn; now rewrite <- !app_assoc).
  rewrite U. rewrite <- chr_numeric. f_equal.
  destruct cs as [|c cs']; [contradiction|].
  change (replace_entity ([c_hash] ++ (c :: cs') ++ [c_semi])) with
    (match (if is_x c then int16 (rstrip_c c_semi (cs' ++ [c_semi])) else int10 (rstrip_c c_semi ((c :: cs') ++ [c_semi]))) with
     | None => Ok ([c_amp; c_hash] ++ (c :: cs') ++ [c_semi])
     | Some n => rmap (fun o => match o with Some t => t | None => [c_amp; c_hash] ++ (c :: cs') ++ [c_semi] end) (chr n)
     end).
  assert (X : is_x c = false) by (apply hex_not_x; cbn [forallb] in Hx; now apply andb_true_iff in Hx as [? _]).
  rewrite X, rstrip_semi by assumption. unfold int10.
  now rewrite (int_digits_value 10 ds (c :: cs') H16 Hd true 0%N (or_introl N)).
Qed.

Lemma hex_ref : forall x ds cs rest, is_x x = true -> Forall2 hex_char ds cs -> ds <> [] ->
  unescape ([c_amp; c_hash; x] ++ cs ++ [c_semi] ++ rest) =
  numeric ([c_amp; c_hash; x] ++ cs ++ [c_semi]) (value 16 ds) (unescape rest).
Proof.
  intros x ds cs rest Hx0 H N.
  assert (Hd : Forall (fun d => d < 16)%N ds).
  { clear - H. induction H as [|d c ds cs A H IH]; constructor; auto. destruct A as [[A _]|[[_ A] _]]; lia. }
  pose proof (numeral_hex _ _ H) as Hx. pose proof (forallb_hex_word _ Hx) as Hw.
  assert (Nc : cs <> []) by (intros ->; inversion H; subst; contradiction).
  assert (M : match_at unescape_re None ([c_amp] ++ ([c_hash; x] ++ cs ++ [c_semi]) ++ rest)
              = Some (rest, [(1, [c_hash; x] ++ cs ++ [c_semi])])).
  { unfold match_at. rewrite unescape_re_eq.
    pose proof (firstn_app_sub _ ([c_hash; x] ++ cs ++ [c_semi]) rest) as F. rewrite <- !app_assoc in *.
    apply (opt_take (N.eqb c_hash) c_hash (x :: cs ++ [c_semi] ++ rest) (Some c_amp) []
      (fun p s c => rmatch ref_rest p s c (fun p' s' c' => Some (s', (1,
            firstn (length ([c_hash; x] ++ cs ++ [c_semi] ++ rest) - length s')
                   ([c_hash; x] ++ cs ++ [c_semi] ++ rest)) :: c'))));
      [reflexivity|].
    apply (opt_take is_x x (cs ++ [c_semi] ++ rest) (Some c_hash) []
      (fun p s c => rmatch ref_end p s c (fun p' s' c' => Some (s', (1,
            firstn (length ([c_hash; x] ++ cs ++ [c_semi] ++ rest) - length s')
                   ([c_hash; x] ++ cs ++ [c_semi] ++ rest)) :: c'))));
      [assumption|].
    apply ref_end_match; auto. intros _. now rewrite F. }
  replace ([c_amp; c_hash; x] ++ cs ++ [c_semi] ++ rest) with ([c_amp] ++ ([c_hash; x] ++ cs ++ [c_semi]) ++ rest)
    by (cbn; now rewrite <- !app_assoc).
  rewrite !unescape_unesc. unfold unesc.
  rewrite app_assoc in *. rewrite (sub_hit _ _ _ rest [(1, [c_hash; x] ++ cs ++ [c_semi])] None unescape_no_bol);
    [|discriminate|exact M].
  rewrite <- chr_numeric. f_equal.
  change (on_group [(1, [c_hash; x] ++ cs ++ [c_semi])]) with
    (match (if is_x x then int16 (rstrip_c c_semi (cs ++ [c_semi])) else int10 (rstrip_c c_semi (x :: cs ++ [c_semi]))) with
     | None => Ok ([c_amp; c_hash; x] ++ cs ++ [c_semi])
     | Some n => rmap (fun o => match o with Some t => t | None => [c_amp; c_hash; x] ++ cs ++ [c_semi] end) (chr n)
     end).
  rewrite Hx0, rstrip_semi by assumption. rewrite (int16_digits ds cs H).
  now rewrite (int_digits_value 16 ds cs H Hd true 0%N (or_introl N)).
Qed.

(** ** Entities in templates *)

Lemma skipped_any : forall cdata w v, stands_for (w ++ [c_semi]) v ->
  skipped_entity cdata (w ++ [c_semi]) = Ok (characters cdata v) /\
  skipped_entity cdata w = Ok (characters cdata v).
Proof.
  intros cdata w v H. pose proof (table_assoc _ _ H) as A. destruct (table_name _ _ H) as (N & W & _).
  unfold skipped_entity. split.
  - rewrite rev_app_distr. cbn [rev app]. rewrite N.eqb_refl. now rewrite A.
  - destruct (rev w) as [|c r] eqn:R; [rewrite <- (rev_involutive w), R in N; now destruct N|].
    destruct (N.eqb_spec c c_semi) as [->|_]; [|now rewrite A].
    exfalso. rewrite forallb_forall in W. assert (I : In c_semi w) by (apply in_rev; rewrite R; now left).
    specialize (W _ I). discriminate.
Qed.

Lemma skipped_unknown : forall cdata w, ~ In c_semi w -> w <> [] ->
  (forall v, ~ stands_for (w ++ [c_semi]) v) -> skipped_entity cdata w = Raise "KeyError".
Proof.
  intros cdata w Ns N H. unfold skipped_entity.
  destruct (rev w) as [|c r] eqn:R; [rewrite <- (rev_involutive w), R in N; now destruct N|].
  destruct (N.eqb_spec c c_semi) as [->|_].
  - exfalso. apply Ns. apply in_rev. rewrite R. now left.
  - destruct (assoc (w ++ [c_semi]) html5) as [v|] eqn:A; [|reflexivity].
    exfalso. apply assoc_In in A. eapply H. exact A.
Qed.

(** ** References without a semicolon *)

(** The character after the name does not belong to the reference. *)
Definition stops (rest : str) : Prop :=
  match rest with [] => True | y :: _ => is_word y = false /\ y <> c_semi end.

Lemma opt_none : forall p s prev c k, match s with [] => True | y :: _ => p y = false end ->
  rep_from p prev s c k 0 (Some 1) = k prev s c.
Proof. intros p [|y s] prev c k H; [reflexivity|]. now apply opt_skip. Qed.

Lemma ref_end_match_bare : forall w rest prev c k x, w <> [] ->
  forallb is_word w = true -> length w <= 32 -> stops rest ->
  (forall q, k q rest c = Some x) ->
  rmatch ref_end prev (w ++ rest) c k = Some x.
Proof.
  intros w rest prev c k x Nw Ww Len St K. unfold ref_end. cbn [rmatch].
  rewrite rep_det by (intros q y t Hy; now rewrite hex_not_semi).
  assert (E : (if 1 <=? length (takewhile is_hex (w ++ rest))
                 then match dropwhile is_hex (w ++ rest) with
                      | [] => None
                      | y :: s' => if N.eqb c_semi y then k (Some y) s' c else None
                      end else None) = None).
  { destruct (1 <=? _); [|reflexivity].
    clear - Ww St. induction w as [|y w IH].
    - destruct rest as [|y r]; [reflexivity|]. destruct St as [S1 S2]. cbn [app dropwhile].
      destruct (is_hex y) eqn:Hy; [apply hex_word in Hy; congruence|].
      destruct (N.eqb_spec c_semi y); [congruence | reflexivity].
    - cbn [forallb] in Ww. apply andb_true_iff in Ww as [Wy Ww]. cbn [app dropwhile].
      destruct (is_hex y); [auto|]. destruct (N.eqb_spec c_semi y) as [<-|]; [discriminate | reflexivity]. }
  rewrite E. apply rep_greedy_bounded; auto.
  - destruct w; [contradiction | cbn; lia].
  - destruct rest; [now right | destruct St; now right].
  - rewrite opt_none; [apply K|]. destruct rest as [|y r]; [exact I|]. destruct St as [_ S2].
    apply N.eqb_neq. congruence.
Qed.

Lemma ref_match_bare : forall w rest, w <> [] -> forallb is_word w = true -> length w <= 32 -> stops rest ->
  match_at unescape_re None ([c_amp] ++ w ++ rest) = Some (rest, [(1, w)]).
Proof.
  intros w rest Nw Ww Len St. unfold match_at. rewrite unescape_re_eq.
  pose proof (firstn_app_sub _ w rest) as F.
  set (k := fun (p' : option N) (s' : str) (c' : caps) => Some (s', (1,
            firstn (length (w ++ rest) - length s') (w ++ rest)) :: c')).
  transitivity (rep_from (N.eqb c_hash) (Some c_amp) (w ++ rest) [] (fun p s c => rmatch ref_rest p s c k) 0 (Some 1));
    [reflexivity|].
  assert (K : forall q, k q rest [] = Some (rest, [(1, w)])) by (intros q; unfold k; now rewrite F).
  clearbody k. destruct w as [|y w]; [contradiction|].
  pose proof Ww as Ww0. cbn [forallb] in Ww0. apply andb_true_iff in Ww0 as [Wy Ww'].
  cbn [app]. rewrite opt_skip by (now apply word_not_hash).
  change (rmatch ref_rest (Some c_amp) (y :: w ++ rest) [] k)
    with (rep_from is_x (Some c_amp) (y :: w ++ rest) [] (fun p s c => rmatch ref_end p s c k) 0 (Some 1)).
  destruct (is_x y) eqn:Xy.
  - destruct w as [|z w].
    + cbn [rep_from option_map pred app]. rewrite Xy.
      assert (E : rep_from is_x (Some y) rest [] (fun p s c => rmatch ref_end p s c k) 0 (Some 0) = None).
      { transitivity (rmatch ref_end (Some y) rest [] k); [destruct rest; reflexivity|].
        unfold ref_end. cbn [rmatch]. destruct rest as [|u rest]; [reflexivity|]. destruct St as [S1 S2].
        cbn [rep_from]. destruct (is_hex u) eqn:Hu; [apply hex_word in Hu; congruence|].
        now rewrite S1. }
      rewrite E. apply (ref_end_match_bare [y]); auto.
    + apply opt_take; [assumption|]. apply (ref_end_match_bare (z :: w)); auto; [discriminate|]. cbn in *. lia.
  - rewrite opt_skip by assumption. apply (ref_end_match_bare (y :: w)); auto.
Qed.

Lemma unescape_bare : forall w rest, w <> [] -> forallb is_word w = true -> length w <= 32 -> stops rest ->
  unescape ([c_amp] ++ w ++ rest) = rbind (replace_entity w) (fun t => rmap (app t) (unescape rest)).
Proof.
  intros w rest Nw Ww Len St. rewrite !unescape_unesc. unfold unesc.
  pose proof (ref_match_bare w rest Nw Ww Len St) as M. rewrite app_assoc in *.
  rewrite (sub_hit _ _ _ rest [(1, w)] None unescape_no_bol); [reflexivity | discriminate | exact M].
Qed.

(** Which prefix is taken. *)
Lemma try_prefixes_none : forall s xs, (forall x, In x xs -> assoc (firstn x s) html5 = None) ->
  try_prefixes s xs = [c_amp] ++ s.
Proof.
  intros s xs. induction xs as [|x xs IH]; intros H; [reflexivity|]. cbn [try_prefixes].
  rewrite H by now left. apply IH. intros y I. apply H. now right.
Qed.

Lemma try_prefixes_first : forall s n a x v, a <= x -> x < a + n ->
  (forall y, a <= y -> y < x -> assoc (firstn y s) html5 = None) ->
  assoc (firstn x s) html5 = Some v ->
  try_prefixes s (seq a n) = v ++ skipn x s.
Proof.
  intros s n. induction n as [|n IH]; intros a x v A B H V; [lia|]. cbn [seq try_prefixes].
  destruct (Nat.eq_dec a x) as [->|N]; [now rewrite V|].
  rewrite H by lia. apply IH; auto; try lia. intros y A' B'. apply H; lia.
Qed.

Lemma no_semi_suffix : forall w, forallb is_word w = true -> suffixb [c_semi] w = false.
Proof.
  intros w H. destruct (suffixb [c_semi] w) eqn:E; [|reflexivity].
  apply suffixb_spec in E. destruct E as [u ->]. rewrite forallb_app in H.
  apply andb_true_iff in H as [_ H]. discriminate.
Qed.

(** No name without a semicolon is a prefix of another one. *)
Definition bare (k : str) : bool := negb (suffixb [c_semi] k).
Fixpoint prefixes (k : str) : list str :=
  match k with [] => [] | c :: k' => [c] :: map (cons c) (prefixes k') end.
Definition prefix_free : bool :=
  forallb (fun kv => if bare (fst kv)
    then forallb (fun p => (length p =? length (fst kv)) ||
                           match assoc p html5 with Some _ => false | None => true end) (prefixes (fst kv))
    else true) html5.
Lemma prefix_free_true : prefix_free = true.
Proof. vm_cast_no_check (eq_refl true). Qed.

Lemma prefixes_In : forall k n, 1 <= n -> n <= length k -> In (firstn n k) (prefixes k).
Proof.
  induction k as [|c k IH]; intros n A B; cbn [length] in B; [lia|].
  destruct n as [|n]; [lia|]. cbn [firstn prefixes]. destruct n; [now left|].
  right. apply in_map. apply IH; lia.
Qed.

Lemma no_shorter : forall k v n, stands_for k v -> bare k = true -> 1 <= n -> n < length k ->
  assoc (firstn n k) html5 = None.
Proof.
  intros k v n H B L1 L2. pose proof prefix_free_true as F. unfold prefix_free in F.
  rewrite forallb_forall in F. specialize (F _ H). cbn [fst] in F. rewrite B in F.
  rewrite forallb_forall in F. specialize (F _ (prefixes_In k n L1 (Nat.lt_le_incl _ _ L2))).
  rewrite firstn_length_le in F by lia. apply orb_true_iff in F as [F|F].
  - apply Nat.eqb_eq in F. lia.
  - destruct (assoc (firstn n k) html5); [discriminate | reflexivity].
Qed.

Lemma word_bare : forall w, forallb is_word w = true -> bare w = true.
Proof. intros w H. unfold bare. now rewrite no_semi_suffix. Qed.

Lemma bare_length : forallb (fun kv => negb (bare (fst kv)) || (2 <=? length (fst kv))) html5 = true.
Proof. vm_cast_no_check (eq_refl true). Qed.

Lemma replace_entity_bare : forall w, w <> [] -> forallb is_word w = true ->
  replace_entity w = Ok (match assoc w html5 with
                         | Some v => v
                         | None => try_prefixes w (seq 2 (length w - 2))
                         end).
Proof.
  intros w N W. unfold replace_entity. destruct w as [|y w]; [contradiction|].
  pose proof W as W0. cbn [forallb] in W0. apply andb_true_iff in W0 as [Wy _]. apply word_not_hash in Wy.
  rewrite N.eqb_sym, Wy, no_semi_suffix by assumption. destruct (assoc (y :: w) html5); reflexivity.
Qed.

(** A name written without its semicolon, before more letters that do not make a known name. *)
Lemma legacy_prefix : forall k v t rest, stands_for k v -> forallb is_word (k ++ t) = true ->
  length (k ++ t) <= 32 -> stops rest -> (t = [] \/ forall v', ~ stands_for (k ++ t) v') ->
  unescape ([c_amp] ++ (k ++ t) ++ rest) = rmap (app (v ++ t)) (unescape rest).
Proof.
  intros k v t rest H W Len St T.
  assert (Wk : forallb is_word k = true) by (rewrite forallb_app in W; now apply andb_true_iff in W).
  pose proof (word_bare k Wk) as B.
  assert (L2 : 2 <= length k).
  { pose proof bare_length as F. rewrite forallb_forall in F. specialize (F _ H). cbn [fst] in F. rewrite B in F.
    now apply Nat.leb_le in F. }
  assert (N : k ++ t <> []) by (destruct k; [cbn in L2; lia | discriminate]).
  rewrite unescape_bare by assumption. rewrite replace_entity_bare by assumption. cbn [rbind]. do 2 f_equal.
  destruct T as [->|T].
  - rewrite !app_nil_r in *. now rewrite (table_assoc k v H).
  - destruct (assoc (k ++ t) html5) as [v'|] eqn:A; [exfalso; apply assoc_In in A; eapply T; exact A|].
    destruct t as [|c t]; [rewrite app_nil_r, (table_assoc k v H) in A; discriminate|].
    rewrite (try_prefixes_first (k ++ c :: t) _ 2 (length k) v).
    + rewrite skipn_app, skipn_all, Nat.sub_diag. reflexivity.
    + assumption.
    + rewrite app_length. cbn [length]. lia.
    + intros y A1 A2. rewrite firstn_app. replace (y - length k) with 0 by lia. cbn [firstn]. rewrite app_nil_r.
      eapply no_shorter; eauto; lia.
    + rewrite firstn_app, firstn_all, Nat.sub_diag. cbn [firstn]. rewrite app_nil_r. now apply table_assoc.
Qed.

(** A word that no known name starts. *)
Lemma legacy_unknown : forall w rest, w <> [] -> forallb is_word w = true -> length w <= 32 -> stops rest ->
  (forall k t v, w = k ++ t -> ~ stands_for k v) ->
  unescape ([c_amp] ++ w ++ rest) = rmap (app ([c_amp] ++ w)) (unescape rest).
Proof.
  intros w rest N W Len St H. rewrite unescape_bare by assumption. rewrite replace_entity_bare by assumption.
  cbn [rbind]. do 2 f_equal.
  assert (A : forall n, assoc (firstn n w) html5 = None).
  { intros n. destruct (assoc (firstn n w) html5) as [v|] eqn:A; [|reflexivity]. apply assoc_In in A.
    exfalso. eapply (H (firstn n w) (skipn n w)); [now rewrite firstn_skipn | exact A]. }
  pose proof (A (length w)) as A0. rewrite firstn_all in A0. rewrite A0.
  apply try_prefixes_none. intros x _. apply A.
Qed.

(** With a semicolon an unknown name is left alone, whatever it starts with. *)
Lemma unknown_semi : forall w rest, w <> [] -> forallb is_word w = true -> length w <= 32 ->
  (forall v, ~ stands_for (w ++ [c_semi]) v) ->
  unescape ([c_amp] ++ (w ++ [c_semi]) ++ rest) = rmap (app ([c_amp] ++ w ++ [c_semi])) (unescape rest).
Proof.
  intros w rest N W Len H.
  pose proof (unescape_ref [] w rest (or_introl eq_refl) N W (or_introl Len)) as U. cbn [app] in U |- *. rewrite U.
  assert (R : replace_entity (w ++ [c_semi]) = Ok ([c_amp] ++ w ++ [c_semi])).
  { unfold replace_entity. destruct w as [|y w]; [contradiction|]. cbn [app].
    cbn [forallb] in W. apply andb_true_iff in W as [Wy _]. apply word_not_hash in Wy. rewrite N.eqb_sym, Wy.
    change (y :: w ++ [c_semi]) with ((y :: w) ++ [c_semi]).
    destruct (assoc ((y :: w) ++ [c_semi]) html5) as [v|] eqn:A; [exfalso; apply assoc_In in A; eapply H; exact A|].
    assert (S : suffixb [c_semi] ((y :: w) ++ [c_semi]) = true) by (apply suffixb_spec; eauto).
    now rewrite S. }
  now rewrite R.
Qed.

(** An ampersand that starts nothing. *)
Lemma lone_amp : forall rest, match rest with [] => True | y :: _ => is_word y = false /\ y <> c_hash end ->
  unescape ([c_amp] ++ rest) = rmap (app [c_amp]) (unescape rest).
Proof.
  intros rest H. rewrite !unescape_unesc. unfold unesc. cbn [app]. rewrite sub_pass; [reflexivity | reflexivity|].
  unfold match_at. rewrite unescape_re_eq. destruct rest as [|y rest]; [reflexivity|]. destruct H as [H1 H2].
  cbn [rmatch]. rewrite N.eqb_refl. rewrite opt_skip by (apply N.eqb_neq; congruence).
  rewrite opt_skip by (destruct (is_x y) eqn:X; [apply x_word in X; congruence | reflexivity]).
  unfold ref_end. cbn [rmatch rep_from]. destruct (is_hex y) eqn:X; [apply hex_word in X; congruence|].
  now rewrite H1.
Qed.

Lemma is_word_spec : forall c, is_word c = true <-> ascii_word c.
Proof.
  intros c. unfold is_word, ascii_word, digit.
  destruct (N.leb_spec 48 c), (N.leb_spec c 57), (N.leb_spec 97 c), (N.leb_spec c 122),
    (N.leb_spec 65 c), (N.leb_spec c 90); cbn [andb]; try (split; [intros _; lia | reflexivity]); try lia;
  rewrite N.eqb_eq; change c_us with 95%N; lia.
Qed.

Lemma words_spec : forall w, forallb is_word w = true <-> Forall ascii_word w.
Proof.
  intros w. rewrite forallb_forall, Forall_forall. split; intros H x I; apply is_word_spec; auto.
Qed.

Lemma stops_spec : forall rest, name_ends rest -> stops rest.
Proof.
  intros [|y r]; [auto|]. intros [A B]. split; [|exact B].
  destruct (is_word y) eqn:E; [|reflexivity]. apply is_word_spec in E. contradiction.
Qed.

(** ** All words after [&#] *)

Lemma ref_rest_bare : forall w rest p k x, w <> [] -> forallb is_word w = true -> length w <= 32 -> stops rest ->
  (forall q, k q rest [] = Some x) -> rmatch ref_rest p (w ++ rest) [] k = Some x.
Proof.
  intros w rest p k r Nw Ww Len St K. destruct w as [|y w]; [contradiction|].
  pose proof Ww as Ww0. cbn [forallb] in Ww0. apply andb_true_iff in Ww0 as [Wy Ww'].
  change (rmatch ref_rest p ((y :: w) ++ rest) [] k)
    with (rep_from is_x p (y :: w ++ rest) [] (fun p s c => rmatch ref_end p s c k) 0 (Some 1)).
  destruct (is_x y) eqn:Xy.
  - destruct w as [|z w].
    + cbn [rep_from option_map pred app]. rewrite Xy.
      assert (E : rep_from is_x (Some y) rest [] (fun p s c => rmatch ref_end p s c k) 0 (Some 0) = None).
      { transitivity (rmatch ref_end (Some y) rest [] k); [destruct rest; reflexivity|].
        unfold ref_end. cbn [rmatch]. destruct rest as [|u rest]; [reflexivity|]. destruct St as [S1 S2].
        cbn [rep_from]. destruct (is_hex u) eqn:Hu; [apply hex_word in Hu; congruence|].
        now rewrite S1. }
      rewrite E. apply (ref_end_match_bare [y]); auto.
    + apply opt_take; [assumption|]. apply (ref_end_match_bare (z :: w)); auto; [discriminate|]. cbn in *. lia.
  - rewrite opt_skip by assumption. apply (ref_end_match_bare (y :: w)); auto.
Qed.

Lemma unescape_hash_bare : forall w rest, w <> [] -> forallb is_word w = true -> length w <= 32 -> stops rest ->
  unescape ([c_amp] ++ ([c_hash] ++ w) ++ rest) =
  rbind (replace_entity ([c_hash] ++ w)) (fun t => rmap (app t) (unescape rest)).
Proof.
  intros w rest Nw Ww Len St.
  assert (M : match_at unescape_re None ([c_amp] ++ ([c_hash] ++ w) ++ rest) = Some (rest, [(1, [c_hash] ++ w)])).
  { unfold match_at. rewrite unescape_re_eq.
    pose proof (firstn_app_sub _ ([c_hash] ++ w) rest) as F. rewrite <- !app_assoc in *.
    apply (opt_take (N.eqb c_hash) c_hash (w ++ rest) (Some c_amp) []
      (fun p s c => rmatch ref_rest p s c (fun p' s' c' => Some (s', (1,
            firstn (length ([c_hash] ++ w ++ rest) - length s') ([c_hash] ++ w ++ rest)) :: c'))));
      [reflexivity|].
    apply ref_rest_bare; auto. intros _. now rewrite F. }
  rewrite !unescape_unesc. unfold unesc. rewrite app_assoc in *.
  rewrite (sub_hit _ _ _ rest [(1, [c_hash] ++ w)] None unescape_no_bol); [reflexivity | discriminate | exact M].
Qed.

Lemma rstrip_word : forall cs, forallb is_word cs = true -> rstrip_c c_semi cs = cs.
Proof.
  intros cs H. unfold rstrip_c.
  assert (E : dropwhile (N.eqb c_semi) (rev cs) = rev cs).
  { destruct (rev cs) as [|y r] eqn:R; [reflexivity|]. apply dropwhile_none.
    rewrite forallb_forall in H. specialize (H y). apply N.eqb_neq. intros <-.
    assert (I : In c_semi cs) by (apply in_rev; rewrite R; now left). specialize (H I). discriminate. }
  rewrite E. apply rev_involutive.
Qed.

(** The number a word stands for, as the program finds it. *)
Definition word_number (w : str) : option N :=
  match w with
  | x :: w' => if is_x x then int16 w' else int10 w
  | [] => None
  end.

Lemma replace_word : forall w semi, w <> [] -> forallb is_word w = true -> semi = [] \/ semi = [c_semi] ->
  replace_entity ([c_hash] ++ w ++ semi) =
  match word_number w with
  | None => Ok ([c_amp; c_hash] ++ w ++ semi)
  | Some n => rmap (fun o => match o with Some t => t | None => [c_amp; c_hash] ++ w ++ semi end) (chr n)
  end.
Proof.
  intros w semi N W S. destruct w as [|x w]; [contradiction|].
  assert (W' : forallb is_word w = true) by (cbn [forallb] in W; now apply andb_true_iff in W as [_ W]).
  change (replace_entity ([c_hash] ++ (x :: w) ++ semi)) with
    (match (if is_x x then int16 (rstrip_c c_semi (w ++ semi)) else int10 (rstrip_c c_semi ((x :: w) ++ semi))) with
     | None => Ok ([c_amp; c_hash] ++ (x :: w) ++ semi)
     | Some n => rmap (fun o => match o with Some t => t | None => [c_amp; c_hash] ++ (x :: w) ++ semi end) (chr n)
     end).
  assert (E : forall u, forallb is_word u = true -> rstrip_c c_semi (u ++ semi) = u).
  { intros u U. destruct S as [-> | ->]; [rewrite app_nil_r; now apply rstrip_word | now apply rstrip_semi]. }
  rewrite !E by assumption. reflexivity.
Qed.

Lemma unescape_hash : forall w semi rest, w <> [] -> forallb is_word w = true -> length w <= 32 ->
  semi = [c_semi] \/ semi = [] /\ stops rest ->
  unescape ([c_amp; c_hash] ++ w ++ semi ++ rest) =
  match word_number w with
  | None => rmap (app ([c_amp; c_hash] ++ w ++ semi)) (unescape rest)
  | Some n => numeric ([c_amp; c_hash] ++ w ++ semi) n (unescape rest)
  end.
Proof.
  intros w semi rest N W Le S.
  assert (E : unescape ([c_amp; c_hash] ++ w ++ semi ++ rest) =
    rbind (replace_entity ([c_hash] ++ w ++ semi)) (fun t => rmap (app t) (unescape rest))).
  { destruct S as [-> | [-> St]].
    - pose proof (unescape_ref [c_hash] w rest (or_intror eq_refl) N W (or_introl Le)) as U.
      rewrite <- U. f_equal. cbn. now rewrite <- !app_assoc.
    - pose proof (unescape_hash_bare w rest N W Le St) as U. rewrite app_nil_r. rewrite <- U. reflexivity. }
  rewrite E, replace_word by (destruct S as [-> | [-> _]]; auto).
  destruct (word_number w) as [n|]; [apply chr_numeric | reflexivity].
Qed.

(** Numerals with underscores. *)
Lemma digits_text_some : forall base ds s, digits_text ds s -> Forall (fun d => d < base)%N ds ->
  forall gap acc, int_digits base gap acc s = Some (fold_left (fun a d => a * base + d)%N ds acc).
Proof.
  intros base ds s H. induction H as [d c C | d c ds s C H IH | d c ds s C H IH]; intros B gap acc;
    apply Forall_cons_iff in B as [Bd Bs]; destruct (hex_char_digit d c C) as (D & U & _);
    cbn [int_digits fold_left]; destruct (N.eqb_spec c c_us); try contradiction; rewrite D;
    destruct (N.ltb_spec d base); try lia; auto.
  change (N.eqb 95 c_us) with true. cbn iota. now rewrite IH.
Qed.

Lemma digit_char : forall c d, digit c = Some d -> (d < 16)%N -> hex_char d c.
Proof.
  intros c d. unfold digit, hex_char.
  destruct ((48 <=? c) && (c <=? 57))%N eqn:A.
  { apply andb_true_iff in A as [A1 A2]. apply N.leb_le in A1, A2. intros [= <-] _. left. lia. }
  destruct ((97 <=? c) && (c <=? 122))%N eqn:B.
  { apply andb_true_iff in B as [B1 B2]. apply N.leb_le in B1, B2. intros [= <-] L. right. lia. }
  destruct ((65 <=? c) && (c <=? 90))%N eqn:C; [|discriminate].
  apply andb_true_iff in C as [B1 B2]. apply N.leb_le in B1, B2. intros [= <-] L. right. lia.
Qed.

Lemma int_digits_text : forall base, (base <= 16)%N -> forall s gap acc n, int_digits base gap acc s = Some n ->
  (gap = false /\ s = []) \/
  (exists ds u, (u = s \/ gap = false /\ s = 95%N :: u) /\ digits_text ds u /\ Forall (fun d => d < base)%N ds).
Proof.
  intros base Hb. induction s as [|c s IH]; intros gap acc n; cbn [int_digits].
  - destruct gap; [discriminate | intros _; now left].
  - destruct (N.eqb_spec c c_us) as [->|U].
    + destruct gap; [discriminate|]. intros H. destruct (IH _ _ _ H) as [[X _]|(ds & u & [-> | [X _]] & D & B)]; try discriminate.
      right. exists ds, s. auto.
    + destruct (digit c) as [d|] eqn:D; [|discriminate]. destruct (N.ltb_spec d base) as [Ld|]; [|discriminate].
      assert (C : hex_char d c) by (apply digit_char; auto; lia).
      intros H. right. destruct (IH _ _ _ H) as [[_ ->]|(ds & u & [-> | [_ ->]] & T & B)].
      * exists [d], [c]. repeat split; [now left | now constructor | now constructor].
      * exists (d :: ds), (c :: s). repeat split; [now left | now constructor | now constructor].
      * exists (d :: ds), (c :: 95%N :: u). repeat split; [now left | now constructor | now constructor].
Qed.

Lemma int_digits_start : forall base s n, (base <= 16)%N -> int_digits base true 0 s = Some n ->
  exists ds, digits_text ds s /\ Forall (fun d => d < base)%N ds /\ n = value base ds.
Proof.
  intros base s n Hb H. destruct (int_digits_text base Hb s true 0%N n H) as [[X _]|(ds & u & [-> | [X _]] & T & B)]; try discriminate.
  exists ds. repeat split; auto. rewrite (digits_text_some base ds s T B) in H. unfold value. congruence.
Qed.

Lemma digits_hex : forall ds s, digits_text ds s -> Forall (fun d => d < 16)%N ds.
Proof.
  intros ds s H. induction H as [d c C | d c ds s C H IH | d c ds s C H IH]; constructor; auto;
    destruct C as [[A _]|[[_ A] _]]; lia.
Qed.

Lemma digits_first : forall ds s, digits_text ds s -> exists c t, s = c :: t /\ is_hex c = true.
Proof. intros ds s [d c C | d c ds' s' C H | d c ds' s' C H]; exists c; eexists; (split; [reflexivity|]); now apply (hex_char_digit d). Qed.

Lemma x_cases : forall x, is_x x = true <-> (x = 120 \/ x = 88)%N.
Proof.
  intros x. unfold is_x. rewrite orb_true_iff, !N.eqb_eq. tauto.
Qed.

Lemma digits_not_prefixed : forall ds z x s, digits_text ds (z :: x :: s) -> N.eqb z 48 && (N.eqb x 120 || N.eqb x 88) = false.
Proof.
  intros ds z x s H. destruct (N.eqb x 120 || N.eqb x 88) eqn:X; [|apply andb_false_r].
  exfalso. assert (Ex : (x = 120 \/ x = 88)%N) by (apply orb_true_iff in X as [X|X]; apply N.eqb_eq in X; auto).
  inversion H as [ | d c ds' s' C T E1 E2 | d c ds' s' C T E1 E2]; subst.
  - destruct (digits_first _ _ T) as (c & t & E & Hc). assert (x = c) as -> by congruence.
    apply hex_not_x in Hc. apply x_cases in Ex. congruence.
  - destruct Ex; discriminate.
Qed.

Lemma int16_plain : forall ds s, digits_text ds s -> int16 s = Some (value 16 ds).
Proof.
  intros ds s H. pose proof (digits_text_some 16 ds s H (digits_hex _ _ H) true 0%N) as E.
  unfold int16. destruct s as [|z [|x s]]; auto. now rewrite (digits_not_prefixed ds z x s H).
Qed.

Lemma int16_prefixed : forall ds y u s, (y = 120 \/ y = 88)%N -> u = [] \/ u = [95%N] -> digits_text ds s ->
  int16 ([48%N; y] ++ u ++ s) = Some (value 16 ds).
Proof.
  intros ds y u s Y U H. pose proof (digits_text_some 16 ds s H (digits_hex _ _ H) true 0%N) as E.
  unfold int16. cbn [app].
  replace (N.eqb 48 48 && (N.eqb y 120 || N.eqb y 88)) with true by (destruct Y as [-> | ->]; reflexivity).
  destruct U as [-> | ->].
  - cbn [app]. destruct (digits_first _ _ H) as (c & t & -> & Hc).
    destruct (N.eqb_spec c c_us) as [->|]; [discriminate | exact E].
  - cbn [app]. change (N.eqb 95 c_us) with true. exact E.
Qed.

Lemma int16_text : forall s n, int16 s = Some n ->
  (exists ds, digits_text ds s /\ n = value 16 ds) \/
  (exists y u ds t, (y = 120 \/ y = 88)%N /\ (u = [] \/ u = [95%N]) /\ digits_text ds t /\ s = [48%N; y] ++ u ++ t /\ n = value 16 ds).
Proof.
  assert (P : forall s n, int_digits 16 true 0 s = Some n -> exists ds, digits_text ds s /\ n = value 16 ds).
  { intros s n H. destruct (int_digits_start 16 s n ltac:(lia) H) as (ds & T & _ & E). eauto. }
  intros s n. unfold int16. destruct s as [|z [|x s]]; try (intros H; left; now apply P).
  destruct (N.eqb z 48 && (N.eqb x 120 || N.eqb x 88)) eqn:X; [|intros H; left; now apply P].
  apply andb_true_iff in X as [Z X]. apply N.eqb_eq in Z. subst z.
  assert (Ex : (x = 120 \/ x = 88)%N) by (apply orb_true_iff in X as [X|X]; apply N.eqb_eq in X; auto).
  destruct s as [|v s]; [discriminate|]. right. destruct (N.eqb_spec v c_us) as [->|V].
  - destruct (P _ _ H) as (ds & T & E). exists x, [95%N], ds, s. repeat split; auto.
  - destruct (P _ _ H) as (ds & T & E). exists x, [], ds, (v :: s). repeat split; auto.
Qed.

Lemma word_number_spec : forall w n, word_number w = Some n <-> number_text w n.
Proof.
  intros w n. split.
  - destruct w as [|x w]; [discriminate|]. cbn [word_number]. destruct (is_x x) eqn:X.
    + apply x_cases in X. intros H. destruct (int16_text _ _ H) as [(ds & T & ->)|(y & u & ds & t & Y & U & T & -> & ->)].
      * now constructor.
      * now apply (prefixed_number x y u ds t).
    + intros H. destruct (int_digits_start 10 _ _ ltac:(lia) H) as (ds & T & B & ->). now constructor.
  - intros [ds s T B | x ds s X T | x y u ds s X Y U T].
    + pose proof (digits_text_some 10 ds s T B true 0%N) as E. destruct (digits_first _ _ T) as (c & t & -> & Hc).
      cbn [word_number]. now rewrite (hex_not_x c Hc).
    + cbn [word_number]. rewrite (proj2 (x_cases x) X). now apply int16_plain.
    + cbn [word_number app]. rewrite (proj2 (x_cases x) X). now apply (int16_prefixed ds y u s).
Qed.

(** [&#] without a word after it. *)
Lemma lone_hash : forall rest, match rest with [] => True | y :: _ => is_word y = false end ->
  unescape ([c_amp; c_hash] ++ rest) = rmap (app [c_amp; c_hash]) (unescape rest).
Proof.
  intros rest H. rewrite !unescape_unesc. unfold unesc. cbn [app].
  assert (R : forall y t p c k, is_word y = false -> rmatch ref_rest p (y :: t) c k = None).
  { intros y t p c k W.
    assert (X : is_x y = false) by (destruct (is_x y) eqn:X; [apply x_word in X; congruence | reflexivity]).
    assert (Hx : is_hex y = false) by (destruct (is_hex y) eqn:X'; [apply hex_word in X'; congruence | reflexivity]).
    unfold ref_rest. cbn [rmatch rep_from]. rewrite X. unfold ref_end. cbn [rmatch rep_from]. now rewrite Hx, W. }
  rewrite sub_pass; [|exact unescape_no_bol|].
  - rewrite sub_pass; [|exact unescape_no_bol | now apply match_amp].
    destruct (sub_from unescape_re on_group None 0 rest); reflexivity.
  - unfold match_at. rewrite unescape_re_eq.
    set (k := fun (p' : option N) (s' : str) (c' : caps) => Some (s', (1,
            firstn (length (c_hash :: rest) - length s') (c_hash :: rest)) :: c')).
    transitivity (rep_from (N.eqb c_hash) (Some c_amp) (c_hash :: rest) [] (fun p s c => rmatch ref_rest p s c k) 0 (Some 1));
      [reflexivity|].
    clearbody k. cbn [rep_from option_map pred]. rewrite N.eqb_refl.
    assert (E : rep_from (N.eqb c_hash) (Some c_hash) rest [] (fun p s c => rmatch ref_rest p s c k) 0 (Some 0) = None).
    { destruct rest as [|y t]; [reflexivity|]. cbn [rep_from]. now apply R. }
    rewrite E. now apply R.
Qed.
