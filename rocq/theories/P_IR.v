(** * Proofs about generated Python: literals, joining of texts, layout *)

From Coq Require Import Ascii String List NArith ZArith Bool Lia Arith.
From Verif Require Import PyStr PyStrLemmas M_IR S_IR.
Import ListNotations.
Open Scope list_scope.

(** ** Induction on nodes *)

Section NodeInd.
Variable P : node -> Prop.
Hypothesis HPass : forall ln, P (NPass ln).
Hypothesis HImport : forall ln t a, P (NImport ln t a).
Hypothesis HInclude : forall ln t, P (NInclude ln t).
Hypothesis HExtend : forall ln t, P (NExtend ln t).
Hypothesis HDef : forall ln i d b, Forall P b -> P (NDef ln i d b).
Hypothesis HCall : forall ln d c b, Forall P b -> P (NCall ln d c b).
Hypothesis HFor : forall ln d b, Forall P b -> P (NFor ln d b).
Hypothesis HWith : forall ln v b, Forall P b -> P (NWith ln v b).
Hypothesis HSwitch : forall ln d b, Forall P b -> P (NSwitch ln d b).
Hypothesis HCase : forall ln d b, Forall P b -> P (NCase ln d b).
Hypothesis HIf : forall ln d b, Forall P b -> P (NIf ln d b).
Hypothesis HElse : forall ln b, Forall P b -> P (NElse ln b).
Hypothesis HText : forall ln t g, P (NText ln t g).
Hypothesis HTrans : forall ln t g, P (NTrans ln t g).
Hypothesis HExpr : forall ln e s, P (NExpr ln e s).
Hypothesis HAttr : forall ln a v g m gen gen2 x, Forall P v -> P (NAttr ln a v g m gen gen2 x).
Hypothesis HAttrs : forall ln e g m x, P (NAttrs ln e g m x).
Hypothesis HPython : forall ln l m, P (NPython ln l m).

Fixpoint node_ind' (n : node) : P n :=
  let all := fix all (l : list node) : Forall P l :=
    match l with [] => Forall_nil _ | m :: l' => Forall_cons _ (node_ind' m) (all l') end in
  match n with
  | NPass ln => HPass ln
  | NImport ln t a => HImport ln t a
  | NInclude ln t => HInclude ln t
  | NExtend ln t => HExtend ln t
  | NDef ln i d b => HDef ln i d b (all b)
  | NCall ln d c b => HCall ln d c b (all b)
  | NFor ln d b => HFor ln d b (all b)
  | NWith ln v b => HWith ln v b (all b)
  | NSwitch ln d b => HSwitch ln d b (all b)
  | NCase ln d b => HCase ln d b (all b)
  | NIf ln d b => HIf ln d b (all b)
  | NElse ln b => HElse ln b (all b)
  | NText ln t g => HText ln t g
  | NTrans ln t g => HTrans ln t g
  | NExpr ln e s => HExpr ln e s
  | NAttr ln a v g m gen gen2 x => HAttr ln a v g m gen gen2 x (all v)
  | NAttrs ln e g m x => HAttrs ln e g m x
  | NPython ln l m => HPython ln l m
  end.
End NodeInd.

(** ** String literals *)

Lemma hex_digit_value : forall d, (d < 16)%N -> hex_value (hex_digit d) = Some d.
Proof.
  intros d H. unfold hex_digit, hex_value. destruct (N.ltb_spec d 10).
  - replace ((48 <=? 48 + d) && (48 + d <=? 57))%N with true by (symmetry; apply andb_true_iff; split; apply N.leb_le; lia).
    f_equal. lia.
  - replace ((48 <=? 87 + d) && (87 + d <=? 57))%N with false by (symmetry; apply andb_false_iff; right; apply N.leb_gt; lia).
    replace ((97 <=? 87 + d) && (87 + d <=? 102))%N with true by (symmetry; apply andb_true_iff; split; apply N.leb_le; lia).
    f_equal. lia.
Qed.

Lemma read_hex_fixed : forall w k acc c s,
  read_hex (w + k) acc (hex_fixed w c s) = read_hex k (acc * 16 ^ N.of_nat w + c mod (16 ^ N.of_nat w))%N s.
Proof.
  induction w as [|w IH]; intros k acc c s.
  - cbn [hex_fixed Nat.add N.of_nat]. rewrite N.pow_0_r, N.mod_1_r. f_equal. lia.
  - cbn [hex_fixed]. replace (S w + k) with (w + S k) by lia. rewrite IH. cbn [read_hex].
    rewrite hex_digit_value by (apply N.mod_lt; lia). f_equal.
    replace (N.of_nat (S w)) with (N.succ (N.of_nat w)) by lia. rewrite N.pow_succ_r'.
    rewrite N.mod_mul_r; [|lia|apply N.pow_nonzero; lia]. lia.
Qed.

Lemma read_hex_char : forall w c rest, (c < 16 ^ N.of_nat w)%N ->
  read_hex w 0 (hex_fixed w c [] ++ rest) = Some (c, rest).
Proof.
  intros w c rest H.
  assert (E : forall w c s t, hex_fixed w c s ++ t = hex_fixed w c (s ++ t)).
  { clear. induction w as [|w IH]; intros; [reflexivity|]. cbn [hex_fixed]. now rewrite IH. }
  rewrite E. pose proof (read_hex_fixed w 0 0 c ([] ++ rest)) as R. rewrite Nat.add_0_r in R. rewrite R.
  cbn [read_hex]. rewrite N.mod_small by assumption. f_equal.
Qed.

Lemma read_repr_char : forall P q c f rest, (q = 39 \/ q = 34)%N -> (c < 1114112)%N ->
  read_chars (S f) q (repr_char P q c ++ rest) = option_map (fun p => (c :: fst p, snd p)) (read_chars f q rest).
Proof.
  intros P q c f rest Q B.
  assert (ESC : forall s t, read_escape s = Some (c, t) ->
    read_chars (S f) q (c_bsl :: s) = option_map (fun p => (c :: fst p, snd p)) (read_chars f q t)).
  { intros s t H. cbn [read_chars]. destruct Q as [-> | ->]; cbn [N.eqb Pos.eqb orb]; now rewrite H. }
  assert (PLAIN : N.eqb c q = false -> N.eqb c c_bsl = false -> N.eqb c c_nl = false -> N.eqb c c_cr = false ->
     read_chars (S f) q ([c] ++ rest) = option_map (fun p => (c :: fst p, snd p)) (read_chars f q rest)).
  { intros A1 A2 A3 A4. cbn [app read_chars]. now rewrite A1, A3, A4, A2. }
  assert (H16_2 : forall r, (c < 256)%N -> read_chars (S f) q ((L "\x" ++ hex_fixed 2 c []) ++ r) =
     option_map (fun p => (c :: fst p, snd p)) (read_chars f q r)).
  { intros r H. rewrite <- app_assoc. apply ESC. apply (read_hex_char 2). exact H. }
  unfold repr_char.
  destruct (N.eqb c q) eqn:E1; cbn [orb].
  { apply N.eqb_eq in E1. subst q. apply ESC. destruct Q as [-> | ->]; reflexivity. }
  destruct (N.eqb c c_bsl) eqn:E2.
  { apply N.eqb_eq in E2. rewrite E2 in *. apply ESC. reflexivity. }
  destruct (N.eqb c c_tab) eqn:E3.
  { apply N.eqb_eq in E3. rewrite E3 in *. apply ESC. reflexivity. }
  destruct (N.eqb c c_nl) eqn:E4.
  { apply N.eqb_eq in E4. rewrite E4 in *. apply ESC. reflexivity. }
  destruct (N.eqb c c_cr) eqn:E5.
  { apply N.eqb_eq in E5. rewrite E5 in *. apply ESC. reflexivity. }
  destruct ((c <? 32) || (c =? 127))%N eqn:E6.
  { apply H16_2. apply orb_true_iff in E6 as [E6|E6]; [apply N.ltb_lt in E6 | apply N.eqb_eq in E6]; lia. }
  destruct (c <? 127)%N; [auto|].
  destruct (P c); [auto|].
  destruct (N.leb_spec c 255); [apply H16_2; lia|].
  destruct (N.leb_spec c 65535).
  - rewrite <- app_assoc. apply ESC. apply (read_hex_char 4). change (16 ^ N.of_nat 4)%N with 65536%N. lia.
  - rewrite <- app_assoc. apply ESC. apply (read_hex_char 8). change (16 ^ N.of_nat 8)%N with 4294967296%N. lia.
Qed.

Lemma read_repr_chars : forall P q s f rest, (q = 39 \/ q = 34)%N -> Forall (fun c => c < 1114112)%N s ->
  length s < f -> read_chars f q (flat_map (repr_char P q) s ++ q :: rest) = Some (s, rest).
Proof.
  intros P q s. induction s as [|c s IH]; intros f rest Q B F.
  - destruct f; [cbn in F; lia|]. cbn [flat_map app read_chars]. now rewrite N.eqb_refl.
  - inversion B as [|? ? B1 B2]. destruct f as [|f]; [cbn in F; lia|]. cbn [flat_map]. rewrite <- app_assoc.
    rewrite read_repr_char by assumption. rewrite IH; auto. cbn in F. lia.
Qed.

Lemma flat_map_repr_length : forall P q s, length s <= length (flat_map (repr_char P q) s).
Proof.
  intros P q s. induction s as [|c s IH]; [auto|]. cbn [flat_map length]. rewrite app_length.
  assert (1 <= length (repr_char P q c)); [|lia].
  unfold repr_char. repeat match goal with |- context [if ?b then _ else _] => destruct b end; cbn; lia.
Qed.

Lemma read_literal_repr : forall P s rest, Forall (fun c => c < 1114112)%N s ->
  read_literal (repr P s ++ rest) = Some (s, rest).
Proof.
  intros P s rest B. unfold repr. set (q := if cmem c_sq s && negb (cmem c_dq s) then c_dq else c_sq).
  assert (Q : (q = 39 \/ q = 34)%N) by (unfold q; destruct (_ && _); auto). clearbody q.
  replace (([q] ++ flat_map (repr_char P q) s ++ [q]) ++ rest) with (q :: flat_map (repr_char P q) s ++ q :: rest)
    by (cbn; now rewrite <- app_assoc).
  unfold read_literal.
  replace (N.eqb q 39 || N.eqb q 34) with true by (destruct Q as [-> | ->]; reflexivity).
  apply read_repr_chars; auto. cbn [length]. rewrite app_length. pose proof (flat_map_repr_length P q s). lia.
Qed.

(** A literal stays on its line. *)
Lemma hex_fixed_in : forall w c acc x, In x (hex_fixed w c acc) -> In x acc \/ (48 <= x)%N.
Proof.
  induction w as [|w IH]; intros c acc x H; [now left|]. cbn [hex_fixed] in H.
  destruct (IH _ _ _ H) as [[<-|I]|I]; auto. right. unfold hex_digit. generalize (c mod 16)%N. intros d.
  destruct (d <? 10)%N; lia.
Qed.

Lemma repr_one_line : forall P s, (forall c, P c = true -> c <> c_nl /\ c <> c_cr) -> ~ In c_nl (repr P s) /\ ~ In c_cr (repr P s).
Proof.
  intros P s HP.
  assert (K : forall x, (x = c_nl \/ x = c_cr) -> ~ In x (repr P s)); [|split; apply K; auto].
  intros x X I. unfold repr in I. set (q := if cmem c_sq s && negb (cmem c_dq s) then c_dq else c_sq) in I.
  assert (Q : (q = 39 \/ q = 34)%N) by (unfold q; destruct (_ && _); auto). clearbody q.
  assert (Nq : x <> q) by (destruct Q as [-> | ->]; destruct X as [-> | ->]; discriminate).
  cbn [app] in I. destruct I as [I|I]; [congruence|]. apply in_app_or in I. destruct I as [I|[I|[]]]; [|congruence].
  apply in_flat_map in I. destruct I as (c & _ & I).
  assert (Hx : forall w, ~ In x (hex_fixed w c [])).
  { intros w J. destruct (hex_fixed_in _ _ _ _ J) as [[]|J']. destruct X as [-> | ->]; lia. }
  assert (Nb : x <> c_bsl) by (destruct X as [-> | ->]; discriminate).
  unfold repr_char in I.
  destruct (N.eqb c q) eqn:E1; cbn [orb] in I.
  { apply N.eqb_eq in E1. destruct I as [I|[I|[]]]; congruence. }
  destruct (N.eqb c c_bsl) eqn:E2.
  { apply N.eqb_eq in E2. destruct I as [I|[I|[]]]; congruence. }
  destruct (N.eqb_spec c c_tab); [destruct I as [I|[I|[]]]; cbn in I; destruct X; congruence|].
  destruct (N.eqb_spec c c_nl); [destruct I as [I|[I|[]]]; cbn in I; destruct X; congruence|].
  destruct (N.eqb_spec c c_cr); [destruct I as [I|[I|[]]]; cbn in I; destruct X; congruence|].
  assert (HEX : forall p w, (forall y, In y p -> y <> x) -> In x (p ++ hex_fixed w c []) -> False).
  { intros p w HP' J. apply in_app_or in J. destruct J as [J|J]; [now apply (HP' x J) | now apply (Hx w)]. }
  assert (BX : forall a, (a = 120 \/ a = 117 \/ a = 85)%N -> forall y, In y [c_bsl; a] -> y <> x).
  { intros a A y [<-|[<-|[]]]; destruct X as [-> | ->]; destruct A as [->|[-> | ->]]; discriminate. }
  destruct ((c <? 32) || (c =? 127))%N; [eapply HEX; [|exact I]; apply BX; auto|].
  destruct (c <? 127)%N; [destruct I as [I|[]]; destruct X; congruence|].
  destruct (P c) eqn:Pc; [destruct (HP c Pc); destruct I as [I|[]]; destruct X; congruence|].
  destruct (c <=? 255)%N; [eapply HEX; [|exact I]; apply BX; auto|].
  destruct (c <=? 65535)%N; (eapply HEX; [|exact I]; apply BX; auto).
Qed.

(** ** [optimize] from right to left *)

Lemma oseqb_eq : forall a b, oseqb a b = true <-> a = b.
Proof.
  intros [a|] [b|]; cbn [oseqb]; split; intros H; try discriminate; try reflexivity.
  - apply seqb_eq in H. congruence.
  - apply seqb_eq. congruence.
Qed.
Lemma oseqb_refl : forall a, oseqb a a = true.
Proof. intros. now apply oseqb_eq. Qed.
Lemma oseqb_neq : forall a b, oseqb a b = false <-> a <> b.
Proof.
  intros a b. destruct (oseqb a b) eqn:E; split; intros H; try discriminate; try reflexivity.
  - apply oseqb_eq in E. contradiction.
  - intros F. apply oseqb_eq in F. congruence.
Qed.

Fixpoint ojoin (l : list item) : list item :=
  match l with
  | [] => []
  | IText ln t g :: l' =>
      match ojoin l' with
      | IText ln' t' g' :: r => if oseqb g g' then IText ln (t ++ t') g :: r else IText ln t g :: IText ln' t' g' :: r
      | r => IText ln t g :: r
      end
  | i :: l' => i :: ojoin l'
  end.

Lemma ojoin_two : forall ln t g ln' t' l, ojoin (IText ln t g :: IText ln' t' g :: l) = ojoin (IText ln (t ++ t') g :: l).
Proof.
  intros. cbn [ojoin]. destruct (ojoin l) as [|[| |ln2 t2 g2|] r] eqn:E; try (now rewrite oseqb_refl).
  destruct (oseqb g g2) eqn:G; rewrite oseqb_refl; [|reflexivity]. now rewrite app_assoc.
Qed.

Lemma ojoin_head_text : forall ln t g l, exists t' r, ojoin (IText ln t g :: l) = IText ln t' g :: r.
Proof.
  intros. cbn [ojoin]. destruct (ojoin l) as [|[| |ln2 t2 g2|] r]; eauto. destruct (oseqb g g2); eauto.
Qed.

Lemma ojoin_diff : forall ln t g ln' t' g' l, oseqb g g' = false ->
  ojoin (IText ln t g :: IText ln' t' g' :: l) = IText ln t g :: ojoin (IText ln' t' g' :: l).
Proof.
  intros ln t g ln' t' g' l H. destruct (ojoin_head_text ln' t' g' l) as (u & r0 & E).
  change (ojoin (IText ln t g :: IText ln' t' g' :: l)) with
    (match ojoin (IText ln' t' g' :: l) with
      | IText ln2 t2 g2 :: r => if oseqb g g2 then IText ln (t ++ t2) g :: r else IText ln t g :: IText ln2 t2 g2 :: r
      | r => IText ln t g :: r end).
  rewrite E. now rewrite H.
Qed.

Definition is_text (i : item) : bool := match i with IText _ _ _ => true | _ => false end.

Lemma ojoin_nontext : forall i l, is_text i = false -> ojoin (i :: l) = i :: ojoin l.
Proof. intros [| | |] l H; try discriminate; reflexivity. Qed.

Lemma ojoin_text_nontext : forall ln t g i l, is_text i = false ->
  ojoin (IText ln t g :: i :: l) = IText ln t g :: i :: ojoin l.
Proof. intros ln t g [| | |] l H; try discriminate; reflexivity. Qed.

Lemma optimize_from_ojoin : forall l last, optimize_from (Some last) l = ojoin (last :: l).
Proof.
  induction l as [|i l IH]; intros last.
  - cbn [optimize_from]. destruct last; reflexivity.
  - destruct i as [| |ln t g|ln ps]; destruct last as [| |ln0 t0 g0|ln0 ps0];
      cbn [optimize_from]; try (rewrite IH; reflexivity).
    destruct (oseqb g0 g) eqn:G.
    + rewrite IH. apply oseqb_eq in G. subst g0. now rewrite ojoin_two.
    + rewrite IH. now rewrite ojoin_diff.
Qed.

Lemma optimize_ojoin : forall l, optimize l = ojoin l.
Proof.
  intros [|i l]; [reflexivity|]. unfold optimize. rewrite <- optimize_from_ojoin. destruct i; reflexivity.
Qed.

(** ** Properties of [optimize] *)

Lemma ojoin_events : forall rho l, events rho (ojoin l) = events rho l.
Proof.
  intros rho l. induction l as [|i l IH]; [reflexivity|]. destruct i as [| |ln t g|ln ps].
  - cbn [ojoin events]. now rewrite IH.
  - cbn [ojoin events]. now rewrite IH.
  - cbn [ojoin events]. rewrite <- IH. destruct (ojoin l) as [|[| |ln' t' g'|] r]; try reflexivity.
    destruct (oseqb g g') eqn:G; [|reflexivity]. apply oseqb_eq in G. subst g'. cbn [events].
    destruct (rho g); [|reflexivity]. now rewrite map_app, app_assoc.
  - cbn [ojoin events]. now rewrite IH.
Qed.

Lemma ojoin_no_neighbours : forall l a ln t g ln' t' g' b,
  ojoin l = a ++ IText ln t g :: IText ln' t' g' :: b -> g <> g'.
Proof.
  induction l as [|i l IH]; intros a ln t g ln' t' g' b H; [destruct a; discriminate|].
  destruct (is_text i) eqn:T.
  - destruct i as [| |ln0 t0 g0|]; try discriminate. cbn [ojoin] in H.
    destruct (ojoin l) as [|[| |ln1 t1 g1|] r] eqn:E.
    + destruct a as [|? [|]]; discriminate.
    + destruct a as [|? a]; [discriminate|]. injection H as <- H. eapply (IH a). exact H.
    + destruct a as [|? a]; [discriminate|]. injection H as <- H. eapply (IH a). exact H.
    + destruct (oseqb g0 g1) eqn:G.
      * destruct a as [|? a].
        -- injection H as <- <- <- ->. apply oseqb_eq in G. subst g1. eapply (IH []). reflexivity.
        -- injection H as <- ->. eapply (IH (_ :: a)). reflexivity.
      * destruct a as [|? a].
        -- injection H as <- <- <- <- <- <- <-. now apply oseqb_neq.
        -- injection H as <- H. eapply (IH a). exact H.
    + destruct a as [|? a]; [discriminate|]. injection H as <- H. eapply (IH a). exact H.
  - rewrite ojoin_nontext in H by assumption. destruct a as [|? a].
    + injection H as -> H. discriminate.
    + injection H as <- H. eapply (IH a). exact H.
Qed.

(** Items other than texts stay, in order. *)
Lemma ojoin_others : forall l, filter (fun i => negb (is_text i)) (ojoin l) = filter (fun i => negb (is_text i)) l.
Proof.
  induction l as [|i l IH]; [reflexivity|]. destruct (is_text i) eqn:T.
  - destruct i as [| |ln t g|]; try discriminate. cbn [filter is_text negb]. rewrite <- IH. cbn [ojoin].
    destruct (ojoin l) as [|[| |ln' t' g'|] r]; try reflexivity. destruct (oseqb g g'); reflexivity.
  - rewrite ojoin_nontext by assumption. cbn [filter]. rewrite T. cbn [negb]. now rewrite IH.
Qed.
