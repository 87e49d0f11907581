From Coq Require Import Ascii String List Arith ZArith Bool Lia Sorted ZifyBool.
From Verif Require Import PyStr PyStrLemmas M_Lnotab S_Lnotab.
Import ListNotations.
Open Scope list_scope.
Open Scope Z_scope.

(** The pairs of bytes for one row. *)
Fixpoint lenc (f : nat) (b d : Z) : list (Z * Z) :=
  match f with
  | O => [(b, d)]
  | S f' => if d >? 255 then (b, 255) :: lenc f' 0 (d - 255) else [(b, d)]
  end.
Fixpoint benc (f : nat) (b d : Z) : list (Z * Z) :=
  match f with
  | O => lenc (Z.to_nat d) b d
  | S f' => if b >? 255 then (255, 0) :: benc f' (b - 255) d else lenc (Z.to_nat d) b d
  end.
Definition enc_row (b d : Z) : list (Z * Z) := benc (Z.to_nat b) b d.

Lemma byte_pairs_lenc : forall f b d t,
  byte_pairs (b :: chunks255 f d ++ t) = rmap (app (lenc f b d)) (byte_pairs t).
Proof.
  induction f as [|f IH]; intros b d t; cbn [chunks255 lenc].
  - simpl. destruct (byte_pairs t); reflexivity.
  - destruct (d >? 255).
    + change (byte_pairs (b :: (255 :: 0 :: chunks255 f (d - 255)) ++ t))
        with (rmap (cons (b, 255)) (byte_pairs (0 :: chunks255 f (d - 255) ++ t))).
      rewrite IH. destruct (byte_pairs t); reflexivity.
    + simpl. destruct (byte_pairs t); reflexivity.
Qed.

Lemma byte_pairs_benc : forall f b d t,
  byte_pairs (chunks255 f b ++ delta d ++ t) = rmap (app (benc f b d)) (byte_pairs t).
Proof.
  induction f as [|f IH]; intros b d t; cbn [chunks255 benc].
  - apply byte_pairs_lenc.
  - destruct (b >? 255).
    + change (byte_pairs ((255 :: 0 :: chunks255 f (b - 255)) ++ delta d ++ t))
        with (rmap (cons (255, 0)) (byte_pairs (chunks255 f (b - 255) ++ delta d ++ t))).
      rewrite IH. destruct (byte_pairs t); reflexivity.
    + apply byte_pairs_lenc.
Qed.

Lemma byte_pairs_row : forall b d t,
  byte_pairs (delta b ++ delta d ++ t) = rmap (app (enc_row b d)) (byte_pairs t).
Proof. intros; apply byte_pairs_benc. Qed.

Fixpoint enc_rows (o l : Z) (rows : list (Z * Z)) : list (Z * Z) :=
  match rows with
  | [] => []
  | (o', l') :: rows' => enc_row (o' - o) (l' - l) ++ enc_rows o' l' rows'
  end.

Fixpoint nondecreasing_from (o l : Z) (rows : list (Z * Z)) : Prop :=
  match rows with
  | [] => True
  | (o', l') :: rows' => o <= o' /\ l <= l' /\ nondecreasing_from o' l' rows'
  end.

Lemma chunks_bytes : forall f d, 0 <= d -> d <= Z.of_nat f \/ d <= 255 -> forallb is_byte (chunks255 f d) = true.
Proof.
  induction f as [|f IH]; intros d H B; cbn [chunks255].
  - cbn. unfold is_byte. lia.
  - destruct (Z.gtb_spec d 255).
    + cbn [forallb]. rewrite IH; [reflexivity| lia | lia].
    + cbn. unfold is_byte. lia.
Qed.

Lemma delta_bytes : forall d, 0 <= d -> forallb is_byte (delta d) = true.
Proof. intros; apply chunks_bytes; lia. Qed.

Lemma lnotab_loop_ok : forall rows o l, nondecreasing_from o l rows ->
  exists bs, lnotab_loop o l rows = Ok bs /\ forallb is_byte bs = true /\
    byte_pairs bs = Ok (enc_rows o l rows).
Proof.
  induction rows as [|(o', l') rows IH]; intros o l H; simpl in H.
  - exists []; repeat split; auto.
  - destruct H as (H1 & H2 & H3). destruct (IH o' l' H3) as (bs & E & B & P).
    exists (delta (o' - o) ++ delta (l' - l) ++ bs). cbn [lnotab_loop].
    replace (negb (o' - o >=? 0)) with false by lia.
    replace (negb (l' - l >=? 0)) with false by lia.
    rewrite E. repeat split.
    + rewrite !forallb_app, B, !delta_bytes by lia. reflexivity.
    + rewrite byte_pairs_row, P. reflexivity.
Qed.

(** Conversely the assertions hold only for such rows. *)
Lemma lnotab_loop_only : forall rows o l bs, lnotab_loop o l rows = Ok bs -> nondecreasing_from o l rows.
Proof.
  induction rows as [|(o', l') rows IH]; cbn [lnotab_loop nondecreasing_from]; intros o l bs H; auto.
  destruct (negb (o' - o >=? 0)) eqn:A; [discriminate|].
  destruct (negb (l' - l >=? 0)) eqn:B; [discriminate|].
  destruct (lnotab_loop o' l' rows) eqn:E; [|discriminate].
  repeat split; try lia. eauto.
Qed.

(** ** Look-up *)

Fixpoint lk (A addr line : Z) (ps : list (Z * Z)) : Z :=
  match ps with
  | [] => line
  | (b, d) :: ps' => if addr + b >? A then line else lk A (addr + b) (line + d) ps'
  end.

Lemma even_list_ind : forall (P : list Z -> Prop), P [] -> (forall x, P [x]) ->
  (forall x y l, P l -> P (x :: y :: l)) -> forall l, P l.
Proof.
  intros P H0 H1 H2. assert (H : forall l, P l /\ forall x, P (x :: l)).
  { induction l as [|x l (A & B)]; split; auto. }
  intros l; apply H.
Qed.

Lemma lookup_lk : forall bs ps, byte_pairs bs = Ok ps -> forall A addr line,
  lookup A addr line bs = lk A addr line ps.
Proof.
  induction bs using even_list_ind; intros ps E A addr line.
  - inversion E; subst; reflexivity.
  - discriminate.
  - simpl in E. destruct (byte_pairs bs) as [ps'|]; [|discriminate]. simpl in E; inversion E; subst.
    simpl. destruct (_ >? _); auto.
Qed.

Lemma lk_lenc : forall f A addr line b d ps, 0 <= d ->
  d <= Z.of_nat f \/ d <= 255 ->
  lk A addr line (lenc f b d ++ ps) = if addr + b >? A then line else lk A (addr + b) (line + d) ps.
Proof.
  induction f as [|f IH]; intros A addr line b d ps H B; cbn [lenc].
  - reflexivity.
  - destruct (Z.gtb_spec d 255).
    + cbn [app lk]. destruct (addr + b >? A) eqn:E; auto.
      rewrite IH by lia. rewrite Z.add_0_r, E. f_equal; lia.
    + reflexivity.
Qed.

Lemma lk_benc : forall f A addr line b d ps, 0 <= b -> 0 <= d ->
  lk A addr line (benc f b d ++ ps) = if addr + b >? A then line else lk A (addr + b) (line + d) ps.
Proof.
  induction f as [|f IH]; intros A addr line b d ps H H'; cbn [benc].
  - apply lk_lenc; lia.
  - destruct (Z.gtb_spec b 255).
    + cbn [app lk]. rewrite IH by lia.
      destruct (Z.gtb_spec (addr + 255) A), (Z.gtb_spec (addr + b) A), (Z.gtb_spec (addr + 255 + (b - 255)) A); try lia.
      f_equal; lia.
    + apply lk_lenc; lia.
Qed.

Lemma line_at_after : forall rows o l cur A, nondecreasing_from o l rows -> A < o ->
  line_at cur rows A = cur.
Proof.
  unfold line_at. induction rows as [|(o', l') rows IH]; intros o l cur A H HA; auto.
  simpl in *. destruct H as (H1 & H2 & H3). destruct (Z.leb_spec o' A); [lia|]. apply (IH o' l'); auto.
Qed.

Lemma lk_rows : forall rows o l A, nondecreasing_from o l rows -> o <= A ->
  lk A o l (enc_rows o l rows) = line_at l rows A.
Proof.
  induction rows as [|(o', l') rows IH]; intros o l A H HA; auto.
  simpl in H. destruct H as (H1 & H2 & H3). cbn [enc_rows].
  unfold enc_row. rewrite lk_benc by lia.
  replace (o + (o' - o)) with o' by lia. replace (l + (l' - l)) with l' by lia.
  destruct (Z.gtb_spec o' A).
  - symmetry. apply (line_at_after ((o', l') :: rows) o' l'); [simpl; repeat split; auto; lia|lia].
  - rewrite IH by (auto; lia). unfold line_at; simpl. destruct (Z.leb_spec o' A); [auto|lia].
Qed.

Lemma increasing_nondecreasing : forall rows o l, increasing_from o l rows -> nondecreasing_from o l rows.
Proof. induction rows as [|(o', l') rows IH]; simpl; intros; auto. destruct H as (? & ? & ?); repeat split; auto; lia. Qed.

Lemma lnotab_string_ok : forall first o l rows,
  0 <= o -> first <= l -> nondecreasing_from o l rows ->
  exists bs, lnotab_string ((o, l) :: rows) first = Ok bs /\ Forall (fun b => 0 <= b <= 255) bs /\
    byte_pairs bs = Ok (enc_rows 0 first ((o, l) :: rows)) /\
    forall A, 0 <= A -> interpreter_line first bs A = line_at first ((o, l) :: rows) A.
Proof.
  intros first o l rows Ho Hl H.
  assert (N : nondecreasing_from 0 first ((o, l) :: rows)) by (simpl; auto).
  destruct (lnotab_loop_ok _ _ _ N) as (bs & E & B & P).
  exists bs. unfold lnotab_string, lnotab.
  replace (first <=? l) with true by lia. rewrite E; cbn [rbind]; rewrite B. repeat split; auto.
  - apply Forall_forall; intros x Hx. rewrite forallb_forall in B. apply B in Hx. unfold is_byte in Hx; lia.
  - intros A HA. unfold interpreter_line. rewrite (lookup_lk _ _ P). apply lk_rows; auto.
Qed.

(** ** Reading back *)

Lemma numbers_lenc0 : forall f last cb cl d ps, 0 <= d -> d <= Z.of_nat f \/ d <= 255 ->
  numbers_loop last cb cl (lenc f 0 d ++ ps) = numbers_loop last cb (cl + d) ps.
Proof.
  induction f as [|f IH]; intros last cb cl d ps H B; cbn [lenc].
  - reflexivity.
  - destruct (Z.gtb_spec d 255); cbn [app numbers_loop].
    + change (0 =? 0) with true; cbv iota. rewrite IH by lia. f_equal; lia.
    + reflexivity.
Qed.

Definition flush (last : option Z) (cb cl : Z) (t : list (Z * Z)) : list (Z * Z) :=
  if differs last cl then (cb, cl) :: t else t.

Lemma differs_false : forall last x, differs last x = false -> last = Some x.
Proof. destruct last; simpl; intros; [f_equal; lia|discriminate]. Qed.

Lemma numbers_lenc : forall f last cb cl b d ps, 0 < b -> 0 <= d -> d <= Z.of_nat f \/ d <= 255 ->
  numbers_loop last cb cl (lenc f b d ++ ps) = flush last cb cl (numbers_loop (Some cl) (cb + b) (cl + d) ps).
Proof.
  intros f last cb cl b d ps Hb Hd B. unfold flush.
  assert (G : forall d' ps', numbers_loop last cb cl ((b, d') :: ps') =
     if differs last cl then (cb, cl) :: numbers_loop (Some cl) (cb + b) (cl + d') ps'
     else numbers_loop (Some cl) (cb + b) (cl + d') ps').
  { intros; cbn [numbers_loop]. replace (b =? 0) with false by lia.
    destruct (differs last cl) eqn:D; auto. apply differs_false in D; subst; auto. }
  destruct f as [|f]; cbn [lenc].
  - apply G.
  - destruct (Z.gtb_spec d 255); cbn [app].
    + rewrite G, numbers_lenc0 by lia. replace (cl + 255 + (d - 255)) with (cl + d) by lia. reflexivity.
    + apply G.
Qed.

Lemma numbers_benc : forall f last cb cl b d ps, 0 < b -> 0 <= d ->
  numbers_loop last cb cl (benc f b d ++ ps) = flush last cb cl (numbers_loop (Some cl) (cb + b) (cl + d) ps).
Proof.
  induction f as [|f IH]; intros last cb cl b d ps Hb Hd; cbn [benc].
  - apply numbers_lenc; lia.
  - destruct (Z.gtb_spec b 255).
    + cbn [app numbers_loop]. change (255 =? 0) with false; cbv iota. rewrite !IH by lia.
      rewrite Z.add_0_r. replace (cb + 255 + (b - 255)) with (cb + b) by lia.
      unfold flush. destruct (differs last cl) eqn:D.
      * simpl. rewrite Z.eqb_refl. reflexivity.
      * reflexivity.
    + apply numbers_lenc; lia.
Qed.

Lemma numbers_rows : forall rows last o l, increasing_from o l rows ->
  numbers_loop last o l (enc_rows o l rows) = drop_redundant last ((o, l) :: rows).
Proof.
  induction rows as [|(o', l') rows IH]; intros last o l H.
  - simpl. destruct last; simpl; auto. destruct (z =? l); reflexivity.
  - simpl in H; destruct H as (H1 & H2 & H3). cbn [enc_rows]. unfold enc_row.
    rewrite numbers_benc by lia.
    replace (o + (o' - o)) with o' by lia. replace (l + (l' - l)) with l' by lia.
    rewrite IH by auto. unfold flush. cbn [drop_redundant].
    destruct last as [x|]; simpl differs; cbv iota; auto.
    destruct (Z.eqb_spec x l); subst; reflexivity.
Qed.

Lemma round_trip : forall first rows, good_table first rows ->
  exists bs, lnotab_string rows first = Ok bs /\ Forall (fun b => 0 <= b <= 255) bs /\
    lnotab_numbers bs first = Ok (drop_redundant None rows) /\
    forall A, 0 <= A -> interpreter_line first bs A = line_at first rows A.
Proof.
  intros first [|(o, l) rows] H; simpl in H; [contradiction|]. destruct H as (-> & H1 & H2).
  destruct (lnotab_string_ok first 0 l rows) as (bs & E & B & P & K); auto; try lia.
  { apply increasing_nondecreasing; auto. }
  exists bs; repeat split; auto. unfold lnotab_numbers. rewrite P. cbn [rmap]. f_equal.
  cbn [enc_rows]. unfold enc_row. change (0 - 0) with 0. cbn [Z.to_nat benc].
  rewrite numbers_lenc0 by lia. replace (first + (l - first)) with l by lia.
  apply numbers_rows; auto.
Qed.

Lemma drop_redundant_strict : forall rows last, 
  match last with Some x => forall o l rest, rows = (o, l) :: rest -> x < l | None => True end ->
  StronglySorted (fun a b => snd a < snd b) rows ->
  drop_redundant last rows = rows.
Proof.
  induction rows as [|(o, l) rows IH]; intros last H S; auto.
  inversion S as [|? ? S' F]; subst. cbn [drop_redundant].
  assert (R : drop_redundant (Some l) rows = rows).
  { apply IH; auto. intros o' l' rest ->. inversion F; auto. }
  rewrite R. destruct last as [x|]; auto. specialize (H o l rows eq_refl).
  replace (x =? l) with false by lia. reflexivity.
Qed.

(** ** Signed tables (Python 3.6 and later) *)


Lemma lk_signed_rows : forall bs ps, byte_pairs bs = Ok ps -> Forall (fun p => snd p <= 127) ps ->
  forall A addr line, lookup_signed A addr line bs = lk A addr line ps.
Proof.
  induction bs using even_list_ind; intros ps E F A addr line.
  - inversion E; subst; reflexivity.
  - discriminate.
  - simpl in E. destruct (byte_pairs bs) as [ps'|]; [|discriminate]. simpl in E; inversion E; subst.
    inversion F as [|? ? H1 F1]; subst; simpl in H1.
    simpl. unfold signed_byte. replace (y >? 127) with false by lia. destruct (_ >? _); auto.
Qed.

Lemma enc_row_small : forall f b d, d <= 127 -> Forall (fun p : Z * Z => snd p <= 127) (benc f b d).
Proof.
  assert (L0 : forall f b d, d <= 127 -> Forall (fun p : Z * Z => snd p <= 127) (lenc f b d)).
  { destruct f; cbn [lenc]; intros; [repeat constructor; auto|].
    replace (d >? 255) with false by lia. repeat constructor; auto. }
  induction f; cbn [benc]; intros; auto. destruct (b >? 255); auto.
  constructor; [simpl; lia|auto].
Qed.

Lemma enc_rows_small : forall rows o l, small_gaps_from l rows ->
  Forall (fun p : Z * Z => snd p <= 127) (enc_rows o l rows).
Proof.
  induction rows as [|(o', l') rows IH]; simpl; intros; [constructor|]. destruct H.
  apply Forall_app; split; [apply enc_row_small; auto|auto].
Qed.

Lemma signed_ok : forall first rows, good_table first rows -> small_gaps_from first rows ->
  exists bs, lnotab_string rows first = Ok bs /\
    forall A, 0 <= A -> interpreter_line_36 first bs A = line_at first rows A.
Proof.
  intros first [|(o, l) rows] H S; simpl in H; [contradiction|]. destruct H as (-> & H1 & H2).
  destruct (lnotab_string_ok first 0 l rows) as (bs & E & B & P & K); auto; try lia.
  { apply increasing_nondecreasing; auto. }
  exists bs; split; auto. intros A HA. rewrite <- K by auto.
  unfold interpreter_line_36, interpreter_line. rewrite (lookup_lk _ _ P).
  apply (lk_signed_rows _ _ P). apply enc_rows_small; auto.
Qed.

(** ** From Python lines to template lines *)

Lemma py_linenos_nth : forall lines i last, forall n, (n < length lines)%nat ->
  nth n (py_linenos_from i last lines) (0, 0) =
  (i + 1 + Z.of_nat n, fold_left Z.max (firstn (S n) lines) last).
Proof.
  induction lines as [|l lines IH]; simpl; intros i last n H; [lia|].
  destruct n as [|n].
  - simpl. f_equal. lia.
  - rewrite IH by lia. f_equal. lia.
Qed.

Lemma py_linenos_length : forall lines i last, length (py_linenos_from i last lines) = length lines.
Proof. induction lines; simpl; intros; auto. Qed.

(** ** Composition with an existing table *)

Lemma numbers_bounds : forall ps last cb cl, Forall (fun p => 0 <= fst p /\ 0 <= snd p) ps ->
  nondecreasing_from cb cl (numbers_loop last cb cl ps).
Proof.
  induction ps as [|(b, d) ps IH]; intros last cb cl F; cbn [numbers_loop].
  - destruct (differs last cl); simpl; auto. repeat split; lia.
  - inversion F as [|? ? (H1 & H2) F']; subst; simpl in *.
    assert (W : forall rows o l o' l', nondecreasing_from o l rows -> o' <= o -> l' <= l -> nondecreasing_from o' l' rows).
    { clear. destruct rows as [|(o1, l1) rows]; simpl; intros; auto. destruct H as (? & ? & ?); repeat split; auto; lia. }
    destruct (b =? 0); [eapply W; [apply IH; auto| |]; lia|].
    destruct (differs last cl).
    + cbn [nondecreasing_from]. repeat split; try lia. eapply W; [apply IH; auto| |]; lia.
    + eapply W; [apply IH; auto| |]; lia.
Qed.

Lemma numbers_line_at : forall ps last cb cl cur A, Forall (fun p => 0 <= fst p /\ 0 <= snd p) ps ->
  (last = None \/ last = Some cur) -> cb <= A ->
  line_at cur (numbers_loop last cb cl ps) A = lk A cb cl ps.
Proof.
  unfold line_at. induction ps as [|(b, d) ps IH]; intros last cb cl cur A F HL HA; cbn [numbers_loop lk].
  - destruct (differs last cl) eqn:D; simpl.
    + destruct (Z.leb_spec cb A); [auto|lia].
    + apply differs_false in D; subst. destruct HL; [discriminate|congruence].
  - inversion F as [|? ? (H1 & H2) F']; subst; simpl in *.
    destruct (Z.eqb_spec b 0).
    + subst. rewrite Z.add_0_r. destruct (Z.gtb_spec cb A); [lia|]. apply IH; auto.
    + set (rest := numbers_loop (Some cl) (cb + b) (cl + d) ps).
      assert (E : fold_left (fun c row => if fst row <=? A then snd row else c) rest cl =
                  if cb + b >? A then cl else lk A (cb + b) (cl + d) ps).
      { destruct (Z.gtb_spec (cb + b) A).
        - eapply line_at_after; [apply numbers_bounds; auto|lia].
        - apply IH; auto. }
      destruct (differs last cl) eqn:D.
      * simpl. destruct (Z.leb_spec cb A); [|lia]. exact E.
      * apply differs_false in D; subst. destruct HL as [HL|HL]; inversion HL; subst. exact E.
Qed.


Definition monotone (d : list (Z * Z)) : Prop :=
  forall k k' v v', dict_get d k = Some v -> dict_get d k' = Some v' -> k <= k' -> v <= v'.

Lemma map_rows : forall (d : list (Z * Z)) rows,
  Forall (fun r => dict_get d (snd r) <> None) rows ->
  exists rows' : list (Z * Z), flat_map (fun p : Z * Z => match dict_get d (snd p) with Some t => [(fst p, t)] | None => [] end) rows = rows' /\
    Forall2 (fun r r' => fst r = fst r' /\ dict_get d (snd r) = Some (snd r')) rows rows'.
Proof.
  induction 1 as [|(o, l) rows H F (rows' & E & G)].
  - exists []; split; auto.
  - simpl in *. destruct (dict_get d l) as [t|] eqn:T; [|congruence].
    exists ((o, t) :: rows'). split; [rewrite E; reflexivity|]. constructor; auto.
Qed.

Lemma map_rows_nondecreasing : forall d rows rows', monotone d ->
  Forall2 (fun r r' => fst r = fst r' /\ dict_get d (snd r) = Some (snd r')) rows rows' ->
  forall o l t, dict_get d l = Some t -> nondecreasing_from o l rows -> nondecreasing_from o t rows'.
Proof.
  intros d rows rows' M F; induction F as [|(o1, l1) (o2, t2) rows rows' (H1 & H2) F IH]; intros o l t T N; auto.
  simpl in *; subst. destruct N as (? & ? & N). repeat split; auto.
  - eapply M; eauto.
  - eapply IH; eauto.
Qed.

Lemma map_rows_line_at : forall d rows rows',
  Forall2 (fun r r' => fst r = fst r' /\ dict_get d (snd r) = Some (snd r')) rows rows' ->
  forall l t A, dict_get d l = Some t -> dict_get d (line_at l rows A) = Some (line_at t rows' A).
Proof.
  unfold line_at. intros d rows rows' F; induction F as [|(o1, l1) (o2, t2) rows rows' (H1 & H2) F IH]; intros l t A T; auto.
  simpl in *; subst. destruct (o2 <=? A); apply IH; auto.
Qed.

Lemma is_table_pairs : forall tab, is_table tab ->
  exists ps, byte_pairs tab = Ok ps /\ Forall (fun p => 0 <= fst p /\ 0 <= snd p) ps.
Proof.
  induction tab using even_list_ind; intros (F & E).
  - exists []; auto.
  - exfalso. destruct E as (m & E). simpl in E. lia.
  - inversion F as [|? ? Hx F1]; inversion F1 as [|? ? Hy F2]; subst.
    destruct IHtab as (ps & P & Q).
    { split; auto. destruct E as (m & E). exists (pred m). simpl in E. lia. }
    exists ((x, y) :: ps). simpl. rewrite P. split; auto. constructor; auto. simpl; lia.
Qed.

Lemma numbers_nonempty : forall ps cb cl, numbers_loop None cb cl ps <> [].
Proof.
  induction ps as [|(b, d) ps IH]; simpl; intros; [discriminate|]. destruct (b =? 0); [auto|discriminate].
Qed.

(** Each row of a table is the line of its own offset. *)
Fixpoint strict_from (o : Z) (rows : list (Z * Z)) : Prop :=
  match rows with [] => True | (o', _) :: rows' => o <= o' /\ strict_from (o' + 1) rows' end.

Lemma strict_weaken : forall rows o o', strict_from o rows -> o' <= o -> strict_from o' rows.
Proof. destruct rows as [|(o1, l1) rows]; simpl; intros; auto. destruct H; split; auto; lia. Qed.

Lemma numbers_strict : forall ps last cb cl, Forall (fun p => 0 <= fst p /\ 0 <= snd p) ps ->
  strict_from cb (numbers_loop last cb cl ps).
Proof.
  induction ps as [|(b, d) ps IH]; intros last cb cl F; cbn [numbers_loop].
  - destruct (differs last cl); simpl; auto. split; auto; lia.
  - inversion F as [|? ? (H1 & H2) F']; subst; simpl in *.
    destruct (Z.eqb_spec b 0); auto.
    destruct (differs last cl).
    + cbn [strict_from]. split; [lia|]. eapply strict_weaken; [apply IH; auto|lia].
    + eapply strict_weaken; [apply IH; auto|lia].
Qed.

Lemma line_at_before : forall rows o cur A, strict_from o rows -> A < o -> line_at cur rows A = cur.
Proof.
  unfold line_at. induction rows as [|(o1, l1) rows IH]; simpl; intros o cur A H HA; auto.
  destruct H. destruct (Z.leb_spec o1 A); [lia|]. eapply IH; eauto. lia.
Qed.

Lemma line_at_row : forall rows o cur r, strict_from o rows -> In r rows ->
  o <= fst r /\ line_at cur rows (fst r) = snd r.
Proof.
  induction rows as [|(o1, l1) rows IH]; simpl; intros o cur r H I; [contradiction|].
  destruct H as (H & S). destruct I as [<-|I].
  - simpl. split; auto. unfold line_at; simpl. rewrite Z.leb_refl.
    apply (line_at_before rows (o1 + 1)); auto. lia.
  - destruct (IH (o1 + 1) l1 r S I) as (A & B). split; [lia|].
    unfold line_at in *. simpl. destruct (Z.leb_spec o1 (fst r)); [auto|lia].
Qed.

(** Re-annotation composes the two tables. *)
Lemma annotate_ok : forall d tab first, is_table tab -> monotone d ->
  dict_get d first <> None ->
  (forall address, 0 <= address -> dict_get d (interpreter_line first tab address) <> None) ->
  exists nfirst ntab, annotate d tab first = Ok (Some (nfirst, ntab)) /\
    Forall (fun b => 0 <= b <= 255) ntab /\
    forall address, 0 <= address ->
      dict_get d (interpreter_line first tab address) = Some (interpreter_line nfirst ntab address).
Proof.
  intros d tab first T M F0 FA0.
  destruct (is_table_pairs tab T) as (ps & P & Q).
  assert (NE : lnotab_numbers tab first = Ok (numbers_loop None 0 first ps)).
  { unfold lnotab_numbers; now rewrite P. }
  assert (FA : Forall (fun r => dict_get d (snd r) <> None) (numbers_loop None 0 first ps)).
  { apply Forall_forall. intros r Hr.
    destruct (line_at_row _ 0 first r (numbers_strict ps None 0 first Q) Hr) as (R1 & R2).
    rewrite <- R2. rewrite numbers_line_at by auto. rewrite <- (lookup_lk _ _ P). apply FA0; auto. }
  destruct (map_rows d _ FA) as (rows' & E & G).
  destruct (dict_get d first) as [nfirst|] eqn:DF; [|congruence].
  pose proof (numbers_bounds ps None 0 first Q) as NB.
  pose proof (map_rows_nondecreasing _ _ _ M G 0 first nfirst DF NB) as NB'.
  destruct rows' as [|(o, l) rows'].
  { exfalso. inversion G. apply (numbers_nonempty ps 0 first). auto. }
  simpl in NB'. destruct NB' as (O1 & L1 & NB').
  destruct (lnotab_string_ok nfirst o l rows') as (bs & S & B & _ & K); auto.
  exists nfirst, bs. repeat split; auto.
  - unfold annotate. destruct d; [discriminate|]. rewrite NE; cbn [rbind]. rewrite E, DF, S. reflexivity.
  - intros A HA. rewrite K by auto. unfold interpreter_line. rewrite (lookup_lk _ _ P).
    rewrite <- (numbers_line_at ps None 0 first first A Q); auto.
    apply map_rows_line_at; auto.
Qed.

(** The table built at compile time is monotone. *)
Lemma fold_max_ge : forall l a, a <= fold_left Z.max l a.
Proof. induction l; simpl; intros; [lia|]. specialize (IHl (Z.max a0 a)). lia. Qed.

Lemma py_linenos_get : forall lines i last k v, dict_get (py_linenos_from i last lines) k = Some v ->
  i < k <= i + Z.of_nat (length lines) /\
  v = fold_left Z.max (firstn (Z.to_nat (k - i)) lines) last.
Proof.
  induction lines as [|l lines IH]; simpl; intros i last k v H; [discriminate|].
  destruct (dict_get (py_linenos_from (i + 1) (Z.max last l) lines) k) as [v'|] eqn:E.
  - inversion H; subst. destruct (IH _ _ _ _ E) as (A & B). split; [lia|].
    replace (Z.to_nat (k - i)) with (S (Z.to_nat (k - (i + 1)))) by lia. exact B.
  - destruct (Z.eqb_spec (i + 1) k); inversion H; subst. split; [lia|].
    replace (Z.to_nat (i + 1 - i)) with 1%nat by lia. reflexivity.
Qed.

Lemma py_linenos_known : forall lines i last k, i < k <= i + Z.of_nat (length lines) ->
  dict_get (py_linenos_from i last lines) k <> None.
Proof.
  induction lines as [|l lines IH]; simpl; intros i last k H; [lia|].
  destruct (Z.eqb_spec (i + 1) k).
  - destruct (dict_get _ _); discriminate.
  - specialize (IH (i + 1) (Z.max last l) k ltac:(lia)).
    destruct (dict_get _ _); congruence.
Qed.

Lemma fold_max_firstn : forall l n m a, (n <= m)%nat ->
  fold_left Z.max (firstn n l) a <= fold_left Z.max (firstn m l) a.
Proof.
  induction l; destruct n, m; simpl; intros; try lia.
  - pose proof (fold_max_ge (firstn m l) (Z.max a0 a)). lia.
  - apply IHl; lia.
Qed.

Lemma py_linenos_monotone : forall lines, monotone (py_linenos lines).
Proof.
  intros lines k k' v v' H H' L. apply py_linenos_get in H; apply py_linenos_get in H'.
  destruct H as (_ & ->), H' as (_ & ->). apply fold_max_firstn. lia.
Qed.

Lemma annotate_py_linenos : forall lines tab first, is_table tab ->
  1 <= first <= Z.of_nat (length lines) ->
  (forall address, 0 <= address -> interpreter_line first tab address <= Z.of_nat (length lines)) ->
  exists nfirst ntab, annotate (py_linenos lines) tab first = Ok (Some (nfirst, ntab)) /\
    Forall (fun b => 0 <= b <= 255) ntab /\
    forall address, 0 <= address ->
      interpreter_line nfirst ntab address =
      fold_left Z.max (firstn (Z.to_nat (interpreter_line first tab address)) lines) 0.
Proof.
  intros lines tab first T H1 H2.
  assert (G : forall address, first <= interpreter_line first tab address).
  { intros A. destruct (is_table_pairs tab T) as (ps & P & Q). unfold interpreter_line.
    rewrite (lookup_lk _ _ P). clear -Q. generalize 0.
    revert first. induction Q as [|(b, d) ps (B & D) Q IH]; simpl in *; intros first z; [lia|].
    destruct (_ >? _); [lia|]. specialize (IH (first + d) (z + b)). lia. }
  destruct (annotate_ok (py_linenos lines) tab first T (py_linenos_monotone lines)) as (nf & nt & E & B & K).
  - apply py_linenos_known; lia.
  - intros A HA. apply py_linenos_known. specialize (G A). specialize (H2 A HA). lia.
  - exists nf, nt. repeat split; auto. intros A HA. specialize (K A HA).
    apply py_linenos_get in K. destruct K as (_ & K). rewrite Z.sub_0_r in K. auto.
Qed.

Lemma interpreter_line_ge : forall tab first address, is_table tab ->
  first <= interpreter_line first tab address.
Proof.
  intros tab first A T. destruct (is_table_pairs tab T) as (ps & P & Q). unfold interpreter_line.
  rewrite (lookup_lk _ _ P). clear -Q. generalize 0.
  revert first. induction Q as [|(b, d) ps (B & D) Q IH]; simpl in *; intros first z; [lia|].
  destruct (_ >? _); [lia|]. specialize (IH (first + d) (z + b)). lia.
Qed.

Lemma fold_max_in : forall l a x, In x l -> x <= fold_left Z.max l a.
Proof.
  induction l as [|y l IH]; simpl; intros a x H; [contradiction|]. destruct H as [<-|H]; auto.
  pose proof (fold_max_ge l (Z.max a y)). lia.
Qed.

Lemma fold_max_attained : forall l a, fold_left Z.max l a = a \/ In (fold_left Z.max l a) l.
Proof.
  induction l as [|y l IH]; simpl; intros a; auto.
  destruct (IH (Z.max a y)) as [E|E]; auto. rewrite E.
  destruct (Z.max_spec a y) as [(_ & ->)|(_ & ->)]; auto.
Qed.

Lemma fold_max_sorted : forall lines k, StronglySorted Z.le lines -> Forall (fun l => 0 <= l) lines ->
  (k < length lines)%nat -> forall n, n = S k -> fold_left Z.max (firstn n lines) 0 = nth k lines 0.
Proof.
  intros lines k S F H n ->.
  assert (A : nth k lines 0 <= fold_left Z.max (firstn (Datatypes.S k) lines) 0).
  { apply fold_max_in. rewrite <- (firstn_skipn (Datatypes.S k) lines) at 1.
    rewrite app_nth1 by (rewrite firstn_length; lia). apply nth_In. rewrite firstn_length; lia. }
  assert (B : forall m, (m <= k)%nat -> nth m lines 0 <= nth k lines 0).
  { clear -S H. revert k H. induction S as [|x l S IH F]; simpl; intros k H m Hm; [lia|].
    destruct k, m; try lia.
    - rewrite Forall_forall in F. apply F. apply nth_In. lia.
    - apply IH; lia. }
  destruct (fold_max_attained (firstn (Datatypes.S k) lines) 0) as [E|E].
  - assert (0 <= nth k lines 0); [|lia]. rewrite Forall_forall in F. apply F, nth_In. auto.
  - apply In_nth with (d := 0) in E. destruct E as (m & Hm & E). rewrite firstn_length in Hm.
    specialize (B m ltac:(lia)). rewrite <- (firstn_skipn (Datatypes.S k) lines) in B at 1.
    rewrite app_nth1 in B by (rewrite firstn_length; lia). lia.
Qed.
