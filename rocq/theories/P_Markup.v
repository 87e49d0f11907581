(** * Proofs: the reader reads what is written *)

From Coq Require Import Ascii String List NArith ZArith Bool Lia Arith.
From Verif Require Import PyStr PyStrLemmas M_Values S_Values P_Values S_Markup.
Import ListNotations.
Open Scope list_scope.

Lemma read_char_written : forall c s rest, written_char c s -> read_char (s ++ rest) = Some (c, rest).
Proof.
  intros c s rest [c' N1 N2|name c' I1].
  - cbn [app read_char]. apply N.eqb_neq in N1, N2. now rewrite N1, N2.
  - cbn [app read_char]. change (N.eqb c_amp c_lt) with false. rewrite N.eqb_refl. cbv iota.
    cbn [In references] in I1. destruct I1 as [E|[E|[E|[E|[]]]]]; injection E as <- <-.
    + rewrite find_ref_amp. cbn [option_map fst snd]. now rewrite skipn_app, skipn_all, Nat.sub_diag.
    + rewrite find_ref_lt. cbn [option_map fst snd]. now rewrite skipn_app, skipn_all, Nat.sub_diag.
    + rewrite find_ref_gt. cbn [option_map fst snd]. now rewrite skipn_app, skipn_all, Nat.sub_diag.
    + rewrite find_ref_quot. cbn [option_map fst snd]. now rewrite skipn_app, skipn_all, Nat.sub_diag.
Qed.
Lemma written_char_pos : forall c s, written_char c s -> exists d t, s = d :: t /\ d <> c_lt.
Proof. intros c s [c' N1 N2|name c' I1]; eexists; eexists; (split; [reflexivity|]); [exact N1|discriminate]. Qed.
Lemma read_text_written : forall v s, written_text v s -> forall fuel, length s <= fuel -> read_text fuel s = Some v.
Proof.
  intros v s W. induction W as [|c s v u Wc W IH]; intros fuel Hf; [destruct fuel; reflexivity|].
  destruct (written_char_pos c s Wc) as (d & t & -> & _). destruct fuel as [|fuel]; [cbn [app length] in Hf; lia|].
  cbn [read_text]. change ((d :: t) ++ u) with (d :: t ++ u). cbn [read_text].
  pose proof (read_char_written c (d :: t) u Wc) as R. change ((d :: t) ++ u) with (d :: t ++ u) in R. rewrite R.
  rewrite IH; [reflexivity|]. cbn [app length] in Hf. rewrite app_length in Hf. lia.
Qed.

(** ** Attributes *)
Definition ends_tag (r : str) : Prop := exists c t, r = c :: t /\ name_char c = false /\ c <> c_sp /\ c <> c_eq.
Lemma attrs_head : forall a s r, written_attrs a s -> ends_tag r -> exists c t, s ++ r = c :: t /\ name_char c = false /\ c <> c_eq.
Proof.
  intros a s r W (c & t & -> & N1 & N2 & N3). destruct W as [|k v s l u Lk Wv Nq W|k l u Lk W].
  - exists c, t. now repeat split.
  - exists c_sp. eexists. split; [reflexivity|]. split; [reflexivity|discriminate].
  - exists c_sp. eexists. split; [reflexivity|]. split; [reflexivity|discriminate].
Qed.
Lemma attrs_reads : forall a s, written_attrs a s -> forall r fuel, ends_tag r -> length s < fuel ->
  read_attributes fuel (s ++ r) = Some (a, r).
Proof.
  intros a s W. induction W as [|k v s l u Lk Wv Nq W IH|k l u Lk W IH]; intros r fuel E Hf.
  - destruct fuel as [|fuel]; [lia|]. destruct E as (c & t & -> & N1 & N2 & N3). cbn [app read_attributes]. apply N.eqb_neq in N2. now rewrite N2.
  - destruct fuel as [|fuel]; [lia|]. rewrite <- !app_assoc. change (L " ") with [c_sp]. change (L "=""") with [c_eq; c_dq]. change (L """") with [c_dq].
    cbn [app]. cbn [read_attributes]. rewrite N.eqb_refl. cbv zeta. destruct Lk as [Nk Fk].
    destruct (takewhile_name k c_eq (c_dq :: s ++ c_dq :: u ++ r) Fk eq_refl) as [T D]. rewrite T, D.
    destruct k as [|k0 k]; [congruence|]. change (prefixb (L "=""") (c_eq :: c_dq :: s ++ c_dq :: u ++ r)) with true. cbv iota. cbn [skipn].
    destruct (takewhile_quote s (u ++ r) Nq) as [T' D']. rewrite D', T'.
    rewrite (read_text_written v _ Wv).
    + rewrite IH; [reflexivity|exact E|]. change (L " ") with [c_sp] in Hf. change (L "=""") with [c_eq; c_dq] in Hf. change (L """") with [c_dq] in Hf.
      repeat rewrite ?app_length, ?length_cons in Hf. cbn [length] in Hf. lia.
    + rewrite map_length, app_length. lia.
  - destruct fuel as [|fuel]; [lia|]. rewrite <- !app_assoc. change (L " ") with [c_sp]. cbn [app]. cbn [read_attributes]. rewrite N.eqb_refl. cbv zeta. destruct Lk as [Nk Fk].
    destruct (attrs_head l u r W E) as (c & t & Eq & Nc & Ne). rewrite Eq.
    destruct (takewhile_name k c t Fk Nc) as [T D]. rewrite T, D. destruct k as [|k0 k]; [congruence|].
    change (L "=""") with [c_eq; c_dq]. cbn [prefixb]. assert (N.eqb c_eq c = false) as -> by (apply N.eqb_neq; congruence). cbn [andb].
    rewrite <- Eq. rewrite IH; [reflexivity|exact E|]. change (L " ") with [c_sp] in Hf. repeat rewrite ?app_length in Hf. cbn [length] in Hf. lia.
Qed.

(** ** Steps of the reader *)
Inductive goes (html : bool) : list str -> str -> list item -> list str -> str -> Prop :=
| g_refl : forall open s, goes html open s [] open s
| g_step : forall open s is o1 s1 is' o2 s2, read_item html open s = Some (is, o1, s1) -> length s1 < length s ->
    goes html o1 s1 is' o2 s2 -> goes html open s (is ++ is') o2 s2.
Lemma goes_trans : forall html o s is o1 s1, goes html o s is o1 s1 -> forall is' o2 s2, goes html o1 s1 is' o2 s2 -> goes html o s (is ++ is') o2 s2.
Proof. intros html o s is o1 s1 G. induction G as [|? ? ? ? ? ? ? ? E Hl G IH]; intros is2 o3 s3 G'; [exact G'|]. rewrite <- app_assoc. eapply g_step; [exact E|exact Hl|]. now apply IH. Qed.
Lemma goes_read : forall html o s is o2 s2, goes html o s is o2 s2 -> o2 = [] -> s2 = [] -> forall fuel, length s <= fuel -> read_items html fuel o s = Some is.
Proof.
  intros html o s is o2 s2 G. induction G as [open s|open s is o1 s1 is' o2 s2 E Hl G IH]; intros -> -> fuel Hf.
  - destruct fuel; reflexivity.
  - destruct fuel as [|fuel]; [lia|]. destruct s as [|c s]; [discriminate|]. cbn [read_items]. rewrite E.
    rewrite (IH eq_refl eq_refl fuel) by lia. reflexivity.
Qed.

Lemma legal_head : forall tag c t, legal_name (c :: t) -> tag = c :: t -> c <> c_lt /\ c <> c_slash.
Proof.
  intros tag c t [_ F] _. cbn [forallb] in F. apply andb_true_iff in F. destruct F as [F _]. unfold name_char in F.
  split; intros ->; vm_compute in F; discriminate.
Qed.
Lemma no_dashes : forall t u, ~ has (L "--") t -> ~ (exists t', t = t' ++ L "-") -> upto (L "--") (t ++ L "--" ++ u) = Some (t, u).
Proof.
  intros t u N1 N2. unfold upto. assert (find (L "--") (t ++ L "--" ++ u) = Some (length t)) as ->.
  { apply find_is_first. intros a' b' E. destruct (le_lt_dec (length t) (length a')) as [|Hl]; [assumption|]. exfalso.
    assert (E' : firstn (length a') (t ++ L "--" ++ u) = a') by (rewrite E, firstn_app, Nat.sub_diag, firstn_O, app_nil_r, firstn_all; reflexivity).
    assert (Ea : a' = firstn (length a') t) by (rewrite <- E' at 1; rewrite firstn_app, (proj2 (Nat.sub_0_le _ _)), firstn_O, app_nil_r by lia; reflexivity).
    assert (Es : skipn (length a') t ++ L "--" ++ u = L "--" ++ b').
    { assert (X : skipn (length a') (t ++ L "--" ++ u) = L "--" ++ b') by (rewrite E, skipn_app, Nat.sub_diag, skipn_all; reflexivity).
      rewrite <- X, skipn_app, (proj2 (Nat.sub_0_le _ _)) by lia. reflexivity. }
    assert (Ht : t = a' ++ skipn (length a') t) by (rewrite Ea at 1; symmetry; apply firstn_skipn).
    destruct (skipn (length a') t) as [|c1 [|c2 r]] eqn:Er.
    - rewrite app_nil_r in Ht. rewrite Ht in Hl. lia.
    - apply N2. exists a'. rewrite Ht. change (L "--") with [c_dash; c_dash] in Es. cbn [app] in Es. injection Es as -> _. reflexivity.
    - apply N1. exists a', r. rewrite Ht. change (L "--") with [c_dash; c_dash] in Es |- *. cbn [app] in Es. injection Es as -> -> _. reflexivity. }
  rewrite firstn_app, Nat.sub_diag, firstn_O, app_nil_r, firstn_all. f_equal. f_equal. rewrite skipn_app, skipn_all2 by lia.
  replace (length t + length (L "--") - length t) with (length (L "--")) by lia. rewrite skipn_app, Nat.sub_diag, skipn_all. reflexivity.
Qed.
Lemma no_brackets : forall t u, ~ has (L "]]>") t -> upto (L "]]>") (t ++ L "]]>" ++ u) = Some (t, u).
Proof.
  intros t u N1. unfold upto. assert (find (L "]]>") (t ++ L "]]>" ++ u) = Some (length t)) as ->.
  { apply find_is_first. intros a' b' E. destruct (le_lt_dec (length t) (length a')) as [|Hl]; [assumption|]. exfalso.
    assert (E' : firstn (length a') (t ++ L "]]>" ++ u) = a') by (rewrite E, firstn_app, Nat.sub_diag, firstn_O, app_nil_r, firstn_all; reflexivity).
    assert (Ea : a' = firstn (length a') t) by (rewrite <- E' at 1; rewrite firstn_app, (proj2 (Nat.sub_0_le _ _)), firstn_O, app_nil_r by lia; reflexivity).
    assert (Es : skipn (length a') t ++ L "]]>" ++ u = L "]]>" ++ b').
    { assert (X : skipn (length a') (t ++ L "]]>" ++ u) = L "]]>" ++ b') by (rewrite E, skipn_app, Nat.sub_diag, skipn_all; reflexivity).
      rewrite <- X, skipn_app, (proj2 (Nat.sub_0_le _ _)) by lia. reflexivity. }
    assert (Ht : t = a' ++ skipn (length a') t) by (rewrite Ea at 1; symmetry; apply firstn_skipn).
    change (L "]]>") with [93%N; 93%N; 62%N] in Es. cbn [app] in Es.
    destruct (skipn (length a') t) as [|c1 [|c2 [|c3 r]]] eqn:Er; cbn [app] in Es.
    - rewrite app_nil_r in Ht. rewrite Ht in Hl. lia.
    - discriminate.
    - discriminate.
    - apply N1. exists a', r. rewrite Ht. injection Es as -> -> -> _. reflexivity. }
  rewrite firstn_app, Nat.sub_diag, firstn_O, app_nil_r, firstn_all. f_equal. f_equal. rewrite skipn_app, skipn_all2 by lia.
  replace (length t + length (L "]]>") - length t) with (length (L "]]>")) by lia. rewrite skipn_app, Nat.sub_diag, skipn_all. reflexivity.
Qed.
(** A text without [</], up to the first end tag. *)
Lemma no_end_tag : forall t u, ~ has (L "</") t -> upto (L "</") (t ++ L "</" ++ u) = Some (t, u).
Proof.
  intros t u N1. unfold upto. assert (find (L "</") (t ++ L "</" ++ u) = Some (length t)) as ->.
  { apply find_is_first. intros a' b' E. destruct (le_lt_dec (length t) (length a')) as [|Hl]; [assumption|]. exfalso.
    assert (E' : firstn (length a') (t ++ L "</" ++ u) = a') by (rewrite E, firstn_app, Nat.sub_diag, firstn_O, app_nil_r, firstn_all; reflexivity).
    assert (Ea : a' = firstn (length a') t) by (rewrite <- E' at 1; rewrite firstn_app, (proj2 (Nat.sub_0_le _ _)), firstn_O, app_nil_r by lia; reflexivity).
    assert (Es : skipn (length a') t ++ L "</" ++ u = L "</" ++ b').
    { assert (X : skipn (length a') (t ++ L "</" ++ u) = L "</" ++ b') by (rewrite E, skipn_app, Nat.sub_diag, skipn_all; reflexivity).
      rewrite <- X, skipn_app, (proj2 (Nat.sub_0_le _ _)) by lia. reflexivity. }
    assert (Ht : t = a' ++ skipn (length a') t) by (rewrite Ea at 1; symmetry; apply firstn_skipn).
    change (L "</") with [60%N; 47%N] in Es. cbn [app] in Es.
    destruct (skipn (length a') t) as [|c1 [|c2 r]] eqn:Er; cbn [app] in Es.
    - rewrite app_nil_r in Ht. rewrite Ht in Hl. lia.
    - discriminate.
    - apply N1. exists a', r. rewrite Ht. injection Es as -> -> _. reflexivity. }
  rewrite firstn_app, Nat.sub_diag, firstn_O, app_nil_r, firstn_all. f_equal. f_equal. rewrite skipn_app, skipn_all2 by lia.
  replace (length t + length (L "</") - length t) with (length (L "</")) by lia. rewrite skipn_app, Nat.sub_diag, skipn_all. reflexivity.
Qed.
Lemma contains_not : forall d t, ~ has d t -> contains d t = false.
Proof. intros d t N. unfold contains. destruct (find d t) as [i|] eqn:F; [|reflexivity]. exfalso. apply N. apply find_Some in F as (a & b & E & _). now exists a, b. Qed.
Lemma raw_legal : forall tag, raw tag -> legal_name tag /\ prefixb (L "!") tag = false /\ voidb tag = false.
Proof. intros tag [->| ->]; (split; [split; [discriminate|reflexivity]|]); split; reflexivity. Qed.
Lemma raw_rawb : forall tag, raw tag <-> rawb tag = true.
Proof.
  intros tag. unfold raw, rawb. rewrite smem_In. cbn [In]. split; [intros [->| ->]; auto|]. intros [<-|[<-|[]]]; auto.
Qed.
Lemma void_legal : forall tag, void tag -> legal_name tag /\ prefixb (L "!") tag = false.
Proof. intros tag V. unfold void in V. cbn [In] in V. repeat destruct V as [<-|V]; try destruct V; (split; [split; [discriminate|reflexivity]|reflexivity]). Qed.

(** A start tag, up to its end. *)
Lemma tag_reads : forall html open tag a s r, legal_name tag -> prefixb (L "!") tag = false -> written_attrs a s -> ends_tag r ->
  read_item html open (L "<" ++ tag ++ s ++ r) =
  if prefixb (L "/>") r then if html then None else Some ([I_start tag a; I_end tag], open, skipn 2 r)
  else if prefixb (L ">") r then
    if html && voidb tag then Some ([I_start tag a; I_end tag], open, skipn 1 r)
    else if html && rawb tag then
      match upto (L "</") (skipn 1 r) with
      | Some (x, r') =>
          if prefixb (tag ++ L ">") r' && negb (contains (L "<!--") x)
          then Some (I_start tag a :: map I_char x ++ [I_end tag], open, skipn (length tag + 1) r') else None
      | None => None
      end
    else Some ([I_start tag a], tag :: open, skipn 1 r)
  else None.
Proof.
  intros html open tag a s r Lt Nb W E. destruct (attrs_head a s r W E) as (c & t & Eq & Nc & Ne). pose proof Lt as [Nn Ft].
  change (L "<") with [c_lt]. cbn [app]. cbn [read_item]. rewrite N.eqb_refl. destruct tag as [|c0 tag]; [congruence|].
  destruct (legal_head _ c0 tag Lt eq_refl) as [H1 H2]. change (L "!--") with [c_bang; c_dash; c_dash]. change (L "![CDATA[") with (c_bang :: L "[CDATA["). change (L "/") with [c_slash].
  change (L "!") with [c_bang] in *. cbn [app prefixb] in *. rewrite andb_true_r in *. rewrite Nb. cbn [andb].
  assert (N.eqb c_slash c0 = false) as -> by (apply N.eqb_neq; congruence). cbv iota.
  rewrite Eq. destruct (takewhile_name (c0 :: tag) c t Ft Nc) as [T D]. cbn [app] in T, D. rewrite T, D. rewrite <- Eq.
  rewrite (attrs_reads a s W r); [reflexivity|exact E|]. cbn [app length]. rewrite !app_length. lia.
Qed.
Lemma gt_ends : forall u, ends_tag (L ">" ++ u).
Proof. intros u. exists c_gt, u. repeat split; discriminate. Qed.
Lemma slash_ends : forall u, ends_tag (L "/>" ++ u).
Proof. intros u. exists c_slash, (c_gt :: u). repeat split; discriminate. Qed.
Lemma void_voidb : forall tag, void tag <-> voidb tag = true.
Proof. intros tag. unfold void, voidb. symmetry. apply smem_In. Qed.

Lemma written_goes : forall html is s, written html is s -> forall open rest, goes html open (s ++ rest) is open rest.
Proof.
  intros html is s W. induction W as [|c s is u Wc W IH|t is u N1 N2 W IH|t is u N1 W IH|tag a s is u Lt Nb Hh Wa W IH|tag a s is u Hh V Wa W IH|tag a s body is u Hh R Wa N1 N2 W IH|tag a s inner body is u Lt Nb Nv Nr Wa Wi IHi W IH]; intros open rest.
  - constructor.
  - rewrite <- app_assoc. change (I_char c :: is) with ([I_char c] ++ is). eapply g_step; [| |apply IH].
    + pose proof (read_char_written c s (u ++ rest) Wc) as R. destruct (written_char_pos c s Wc) as (d & t & -> & Nd).
      cbn [app] in R |- *. cbn [read_item]. apply N.eqb_neq in Nd. rewrite Nd, R. reflexivity.
    + destruct (written_char_pos c s Wc) as (d & t & -> & Nd). cbn [app length]. rewrite !app_length. lia.
  - rewrite <- !app_assoc. change (I_comment t :: is) with ([I_comment t] ++ is). eapply g_step; [| |apply IH].
    + change (L "<!--") with (c_lt :: L "!--"). cbn [app]. cbn [read_item]. rewrite N.eqb_refl, prefixb_app.
      change (skipn 3 (L "!--" ++ t ++ L "-->" ++ u ++ rest)) with (t ++ L "--" ++ L ">" ++ u ++ rest). rewrite no_dashes by assumption. rewrite prefixb_app. reflexivity.
    + change (L "<!--") with (c_lt :: L "!--"). change (L "-->") with [c_dash; c_dash; c_gt]. cbn [app length]. rewrite !app_length. cbn [length]. rewrite !app_length. lia.
  - rewrite <- !app_assoc. eapply g_step; [| |apply IH].
    + change (L "<![CDATA[") with (c_lt :: L "![CDATA["). cbn [app]. cbn [read_item]. rewrite N.eqb_refl.
      change (prefixb (L "!--") (L "![CDATA[" ++ t ++ L "]]>" ++ u ++ rest)) with false. rewrite prefixb_app.
      change (skipn 8 (L "![CDATA[" ++ t ++ L "]]>" ++ u ++ rest)) with (t ++ L "]]>" ++ u ++ rest). rewrite no_brackets by assumption. reflexivity.
    + change (L "<![CDATA[") with (c_lt :: L "![CDATA["). cbn [app length]. rewrite !app_length. lia.
  - rewrite <- !app_assoc. change (I_start tag a :: I_end tag :: is) with ([I_start tag a; I_end tag] ++ is). eapply g_step; [| |apply IH].
    + rewrite (tag_reads html open tag a s (L "/>" ++ u ++ rest) Lt Nb Wa (slash_ends _)). rewrite prefixb_app, Hh. reflexivity.
    + change (L "<") with [c_lt]. cbn [app length]. rewrite !app_length. lia.
  - rewrite <- !app_assoc. change (I_start tag a :: I_end tag :: is) with ([I_start tag a; I_end tag] ++ is). eapply g_step; [| |apply IH].
    + destruct (void_legal tag V) as [Lt Nb]. rewrite (tag_reads html open tag a s (L ">" ++ u ++ rest) Lt Nb Wa (gt_ends _)). rewrite prefixb_app.
      apply void_voidb in V. rewrite Hh, V. reflexivity.
    + change (L "<") with [c_lt]. cbn [app length]. rewrite !app_length. lia.
  - rewrite <- !app_assoc. replace (I_start tag a :: map I_char body ++ I_end tag :: is) with ((I_start tag a :: map I_char body ++ [I_end tag]) ++ is) by (cbn [app]; now rewrite <- app_assoc).
    eapply g_step; [| |apply IH].
    + destruct (raw_legal tag R) as (Lt & Nb & Nv). rewrite (tag_reads html open tag a s _ Lt Nb Wa (gt_ends _)). rewrite prefixb_app. apply raw_rawb in R. rewrite Hh, Nv, R. cbn [andb].
      change (prefixb (L "/>") (L ">" ++ body ++ L "</" ++ tag ++ L ">" ++ u ++ rest)) with false. cbv iota.
      change (skipn 1 (L ">" ++ body ++ L "</" ++ tag ++ L ">" ++ u ++ rest)) with (body ++ L "</" ++ tag ++ L ">" ++ u ++ rest). rewrite no_end_tag by exact N1.
      rewrite (app_assoc tag), prefixb_app, contains_not by exact N2. cbn [andb negb]. rewrite skipn_app, skipn_all2 by (rewrite app_length; cbn; lia). rewrite app_length. change (length (L ">")) with 1. rewrite Nat.sub_diag. reflexivity.
    + change (L "<") with [c_lt]. cbn [app length]. rewrite !app_length. lia.
  - rewrite <- !app_assoc. change (I_start tag a :: inner ++ I_end tag :: is) with ([I_start tag a] ++ inner ++ [I_end tag] ++ is).
    eapply g_step; [| |eapply goes_trans; [apply IHi|eapply g_step; [| |apply IH]]].
    + rewrite (tag_reads html open tag a s _ Lt Nb Wa (gt_ends _)). rewrite prefixb_app.
      assert (html && voidb tag = false) as ->.
      { destruct html; [|reflexivity]. destruct (voidb tag) eqn:V; [|reflexivity]. destruct Nv. split; [reflexivity|]. now apply void_voidb. }
      assert (html && rawb tag = false) as ->.
      { destruct html; [|reflexivity]. destruct (rawb tag) eqn:V; [|reflexivity]. destruct Nr. split; [reflexivity|]. now apply raw_rawb. }
      reflexivity.
    + change (L "<") with [c_lt]. cbn [app length]. rewrite !app_length. lia.
    + change (L "</") with [c_lt; c_slash]. cbn [app]. cbn [read_item]. rewrite N.eqb_refl.
      change (prefixb (L "!--") (c_slash :: tag ++ L ">" ++ u ++ rest)) with false. change (prefixb (L "![CDATA[") (c_slash :: tag ++ L ">" ++ u ++ rest)) with false.
      change (prefixb (L "!") (c_slash :: tag ++ L ">" ++ u ++ rest)) with false. change (prefixb (L "/") (c_slash :: tag ++ L ">" ++ u ++ rest)) with true.
      cbv iota. cbn [skipn]. destruct (takewhile_name tag c_gt (u ++ rest) (proj2 Lt) eq_refl) as [T D]. change (L ">" ++ u ++ rest) with (c_gt :: u ++ rest). rewrite T, D, seqb_refl.
      change (L ">") with [c_gt]. cbn [prefixb]. rewrite N.eqb_refl. reflexivity.
    + change (L "</") with [c_lt; c_slash]. cbn [app length]. rewrite !app_length. lia.
Qed.
Lemma read_written : forall html is s, written html is s -> read html s = Some is.
Proof. intros html is s W. unfold read. apply (goes_read html [] s is [] []); [|reflexivity|reflexivity|lia]. pose proof (written_goes html is s W [] []) as G. now rewrite app_nil_r in G. Qed.
Lemma line_ends_none : forall s, ~ In 13%N s -> line_ends s = s.
Proof.
  induction s as [|c s IH]; intros Nn; [reflexivity|]. cbn [line_ends]. assert (N.eqb c 13 = false) as -> by (apply N.eqb_neq; intros ->; apply Nn; now left).
  f_equal. apply IH. intros I1. apply Nn. now right.
Qed.
Lemma written_app : forall html is s, written html is s -> forall is' s', written html is' s' -> written html (is ++ is') (s ++ s').
Proof.
  intros html is s W is' s' W'. induction W; rewrite <- ?app_assoc; cbn [app]; rewrite <- ?app_assoc; try (econstructor; eassumption).
  - exact W'.
Qed.
