(** * Proofs about generated Python: reading the layout back *)

From Coq Require Import Ascii String List NArith ZArith Bool Lia Arith.
From Verif Require Import PyStr PyStrLemmas M_IR S_IR P_IR P_IR2.
Import ListNotations.
Open Scope list_scope.

(** ** Lines *)

Lemma column_spaces : forall k l, column (spaces k ++ l) = k + column l.
Proof.
  intros k l. unfold column, spaces. induction k as [|k IH]; [reflexivity|].
  cbn [repeat app takewhile]. change (is_sp c_sp) with true. cbn [length]. now rewrite IH.
Qed.

Lemma content_spaces : forall k l, content (spaces k ++ l) = content l.
Proof.
  intros k l. unfold content, spaces. induction k as [|k IH]; [reflexivity|].
  cbn [repeat app dropwhile]. change (is_sp c_sp) with true. exact IH.
Qed.

Lemma ignored_spaces : forall k l, ignored (spaces k ++ l) = ignored l.
Proof.
  intros k l. unfold ignored, lstrip, spaces. induction k as [|k IH]; [reflexivity|].
  cbn [repeat app dropwhile]. exact IH.
Qed.

Lemma sp_space : forall c, is_sp c = true -> is_space c = true.
Proof. intros c H. unfold is_sp in H. apply N.eqb_eq in H. now subst. Qed.

Lemma visible_line : forall l, visible l -> ignored l = false /\ column l = 0 /\ content l = l.
Proof.
  intros [|c l] V; [destruct V|]. destruct V as [V1 V2]. unfold ignored, column, content, lstrip. cbn [dropwhile takewhile]. rewrite V1.
  assert (E : is_sp c = false) by (destruct (is_sp c) eqn:E; [apply sp_space in E; congruence | reflexivity]).
  rewrite E. split; [now apply N.eqb_neq | split; reflexivity].
Qed.

(** ** States of the reader *)

Notation frames := (list (nat * list tblock * str)).

Definition after (k : nat) (r : reader) (done : list tblock) (open : frames) : Prop :=
  r_head r = None /\ close_to k (r_col r) (r_done r) (r_open r) = Some (k, done, open).
Definition pending (k : nat) (r : reader) (done : list tblock) (open : frames) : Prop :=
  exists h, r_head r = Some h /\ r_col r < k /\ done = [] /\ open = (r_col r, r_done r, h) :: r_open r.
Definition ready k r done open : Prop := after k r done open \/ pending k r done open.

Lemma close_self : forall k d o, close_to k k d o = Some (k, d, o).
Proof. intros k d [|x o]; cbn [close_to]; now rewrite Nat.eqb_refl. Qed.

Lemma close_down : forall o i j col d c' d' o', j < i -> close_to i col d o = Some (c', d', o') ->
  close_to j col d o = close_to j c' d' o'.
Proof.
  induction o as [|[[c1 d1] h1] o IH]; intros i j col d c' d' o' J C; cbn [close_to] in C.
  - destruct (Nat.eqb_spec i col) as [->|N]; [injection C as <- <- <-; reflexivity|].
    destruct (Nat.ltb i col); discriminate.
  - destruct (Nat.eqb_spec i col) as [->|N]; [injection C as <- <- <-; reflexivity|].
    destruct (Nat.ltb_spec i col); [|discriminate]. cbn [close_to].
    destruct (Nat.eqb_spec j col); [lia|]. destruct (Nat.ltb_spec j col); [|lia].
    exact (IH i j _ _ _ _ _ J C).
Qed.

Lemma read_ready : forall k r done open line, ready k r done open -> ignored line = false -> column line = k ->
  read_line r line = Some (add_line (content line) (k, done, open)).
Proof.
  intros k r done open line R I C. unfold read_line. rewrite I, C.
  destruct R as [(H & A)|(h & H & B & -> & ->)]; rewrite H.
  - now rewrite A.
  - destruct (Nat.ltb_spec (r_col r) k); [reflexivity | lia].
Qed.

Lemma after_stmt : forall k done open line, opens line = false ->
  after k (add_line line (k, done, open)) (TStmt line :: done) open.
Proof. intros. unfold add_line. rewrite H. split; [reflexivity|]. apply close_self. Qed.

Lemma pending_head : forall k done open line, opens line = true ->
  pending (4 + k) (add_line line (k, done, open)) [] ((k, done, line) :: open).
Proof.
  intros. unfold add_line. rewrite H. exists line. cbn [r_head r_col r_done r_open]. repeat split; auto. lia.
Qed.

Lemma after_close : forall k r h body done open, after (4 + k) r body ((k, done, h) :: open) ->
  after k r (TBlock h (rev body) :: done) open.
Proof.
  intros k r h body done open (H & C). split; [assumption|].
  rewrite (close_down _ (4 + k) k _ _ _ _ _ ltac:(lia) C). cbn [close_to].
  destruct (Nat.eqb_spec k (4 + k)); [lia|]. destruct (Nat.ltb_spec k (4 + k)); [|lia]. apply close_self.
Qed.

Lemma read_lines_app : forall a b r, read_lines r (a ++ b) =
  match read_lines r a with Some r' => read_lines r' b | None => None end.
Proof.
  induction a as [|x a IH]; intros b r; [reflexivity|]. cbn [app read_lines].
  destruct (read_line r x); [apply IH | reflexivity].
Qed.

(** ** Embedded Python *)

Section Embed.
Variable k : nat.
Variable done : list tblock.
Variable open : frames.

Fixpoint emb_open (l : frames) : frames :=
  match l with
  | [] => open
  | (c, d, h) :: l' => (k + c, match l' with [] => d ++ done | _ => d end, h) :: emb_open l'
  end.
Definition emb_done (d : list tblock) (o : frames) : list tblock := match o with [] => d ++ done | _ => d end.
Definition emb (s : reader) : reader :=
  Reader (k + r_col s) (emb_done (r_done s) (r_open s)) (emb_open (r_open s)) (r_head s).

Fixpoint bottom (col : nat) (o : frames) : nat :=
  match o with [] => col | (c, _, _) :: o' => bottom c o' end.

Lemma close_emb : forall o i col d, bottom col o = 0 ->
  close_to (k + i) (k + col) (emb_done d o) (emb_open o) =
  match close_to i col d o with
  | Some (c', d', o') => Some (k + c', emb_done d' o', emb_open o')
  | None => None
  end.
Proof.
  induction o as [|[[c1 d1] h1] o IH]; intros i col d B.
  - cbn [bottom] in B. subst col. cbn [emb_open emb_done close_to].
    destruct (Nat.eqb_spec i 0) as [->|N].
    + rewrite close_self. reflexivity.
    + destruct (Nat.ltb_spec i 0); [lia|].
      assert (E : close_to (k + i) (k + 0) (d ++ done) open = None).
      { destruct open; cbn [close_to]; destruct (Nat.eqb_spec (k + i) (k + 0)); try lia;
          destruct (Nat.ltb_spec (k + i) (k + 0)); try lia; reflexivity. }
      exact E.
  - cbn [emb_open emb_done close_to].
    destruct (Nat.eqb_spec i col) as [->|N].
    + rewrite Nat.eqb_refl. reflexivity.
    + destruct (Nat.eqb_spec (k + i) (k + col)); [lia|].
      destruct (Nat.ltb_spec i col), (Nat.ltb_spec (k + i) (k + col)); try lia; [|reflexivity].
      cbn [bottom] in B. specialize (IH i c1 (TBlock h1 (rev d) :: d1) B).
      rewrite <- IH. f_equal. unfold emb_done. destruct o; reflexivity.
Qed.

Lemma close_bottom : forall o i col d c' d' o', close_to i col d o = Some (c', d', o') -> bottom c' o' = bottom col o.
Proof.
  induction o as [|[[c1 d1] h1] o IH]; intros i col d c' d' o' C; cbn [close_to] in C.
  - destruct (Nat.eqb_spec i col) as [->|N]; [injection C as <- <- <-; reflexivity|].
    destruct (Nat.ltb i col); discriminate.
  - destruct (Nat.eqb_spec i col) as [->|N]; [injection C as <- <- <-; reflexivity|].
    destruct (Nat.ltb i col); [|discriminate]. apply IH in C. exact C.
Qed.

Lemma add_line_emb : forall line c d o,
  add_line line (k + c, emb_done d o, emb_open o) = emb (add_line line (c, d, o)).
Proof.
  intros. unfold add_line. destruct (opens line); unfold emb; cbn [r_col r_done r_open r_head]; [reflexivity|].
  unfold emb_done. destruct o; reflexivity.
Qed.

Lemma add_line_bottom : forall line c d o, bottom (r_col (add_line line (c, d, o))) (r_open (add_line line (c, d, o))) = bottom c o.
Proof. intros. unfold add_line. destruct (opens line); reflexivity. Qed.

Lemma read_line_emb : forall s line, bottom (r_col s) (r_open s) = 0 ->
  read_line (emb s) (spaces k ++ line) = option_map emb (read_line s line).
Proof.
  intros s line B. unfold read_line. rewrite ignored_spaces, column_spaces, content_spaces.
  destruct (ignored line); [reflexivity|]. unfold emb at 1. cbn [r_head].
  destruct (r_head s) as [h|].
  - unfold emb. cbn [r_col r_done r_open].
    destruct (Nat.ltb_spec (r_col s) (column line)), (Nat.ltb_spec (k + r_col s) (k + column line)); try lia; [|reflexivity].
    cbn [option_map]. f_equal.
    exact (add_line_emb (content line) (column line) [] ((r_col s, r_done s, h) :: r_open s)).
  - unfold emb at 1 2 3. cbn [r_col r_done r_open]. rewrite close_emb by assumption.
    destruct (close_to (column line) (r_col s) (r_done s) (r_open s)) as [[[c' d'] o']|]; [|reflexivity].
    cbn [option_map]. now rewrite add_line_emb.
Qed.

Lemma read_line_bottom : forall s line s', read_line s line = Some s' ->
  bottom (r_col s') (r_open s') = bottom (r_col s) (r_open s).
Proof.
  intros s line s' H. unfold read_line in H. destruct (ignored line); [congruence|].
  destruct (r_head s) as [h|].
  - destruct (Nat.ltb _ _); [|discriminate].
    pose proof (add_line_bottom (content line) (column line) [] ((r_col s, r_done s, h) :: r_open s)) as A.
    cbn [bottom] in A. congruence.
  - destruct (close_to _ _ _ _) as [[[c' d'] o']|] eqn:C; [|discriminate]. cbn [option_map] in H.
    pose proof (add_line_bottom (content line) c' d' o') as A.
    apply close_bottom in C. congruence.
Qed.

Lemma read_lines_emb : forall lines s, bottom (r_col s) (r_open s) = 0 ->
  read_lines (emb s) (map (fun line => spaces k ++ line) lines) = option_map emb (read_lines s lines).
Proof.
  induction lines as [|l lines IH]; intros s B; [reflexivity|]. cbn [map read_lines].
  rewrite read_line_emb by assumption. destruct (read_line s l) as [s'|] eqn:E; [|reflexivity].
  cbn [option_map]. apply IH. rewrite (read_line_bottom _ _ _ E). assumption.
Qed.

Lemma read_lines_bottom : forall lines s s', read_lines s lines = Some s' ->
  bottom (r_col s') (r_open s') = bottom (r_col s) (r_open s).
Proof.
  induction lines as [|l lines IH]; intros s s' H; cbn [read_lines] in H; [congruence|].
  destruct (read_line s l) as [s1|] eqn:E; [|discriminate]. rewrite (IH _ _ H). eapply read_line_bottom; eauto.
Qed.

Lemma close_zero : forall o col d, bottom col o = 0 -> exists d', close_to 0 col d o = Some (0, d', []) \/
  exists o', close_to 0 col d o = Some (0, d', o').
Proof.
  induction o as [|[[c1 d1] h1] o IH]; intros col d B.
  - cbn [bottom] in B. subst col. exists d. left. reflexivity.
  - cbn [close_to]. destruct (Nat.eqb_spec 0 col) as [<-|N]; [eauto|].
    destruct (Nat.ltb_spec 0 col); [|lia]. apply IH. exact B.
Qed.

(** The state at the end of the embedded lines. *)
Lemma emb_after : forall s ts, bottom (r_col s) (r_open s) = 0 ->
  (forall c d o, close_to 0 (r_col s) (r_done s) (r_open s) = Some (c, d, o) -> o = []) ->
  read_end s = Some ts -> after k (emb s) (rev ts ++ done) open.
Proof.
  intros s ts B Z H. unfold read_end in H. destruct (r_head s) eqn:Hd; [discriminate|].
  split; [exact Hd|]. unfold emb. cbn [r_col r_done r_open].
  replace k with (k + 0) at 1 by lia. rewrite close_emb by assumption.
  destruct (close_to 0 (r_col s) (r_done s) (r_open s)) as [[[c' d'] o']|] eqn:C; [|discriminate].
  cbn [option_map fst snd] in H. injection H as <-. rewrite rev_involutive.
  rewrite (Z _ _ _ eq_refl) in *. cbn [emb_done emb_open].
  assert (c' = 0); [|subst; now rewrite Nat.add_0_r].
  pose proof (close_bottom _ _ _ _ _ _ _ C) as B'. cbn [bottom] in B'. lia.
Qed.
End Embed.

(** Columns strictly increase inwards, so closing to 0 closes everything. *)
Fixpoint increasing (col : nat) (o : frames) : Prop :=
  match o with [] => True | (c, _, _) :: o' => c < col /\ increasing c o' end.

Lemma close_increasing : forall o i col d c' d' o', increasing col o -> close_to i col d o = Some (c', d', o') -> increasing c' o'.
Proof.
  induction o as [|[[c1 d1] h1] o IH]; intros i col d c' d' o' I C; cbn [close_to] in C.
  - destruct (Nat.eqb_spec i col) as [->|N]; [injection C as <- <- <-; exact I|].
    destruct (Nat.ltb i col); discriminate.
  - destruct (Nat.eqb_spec i col) as [->|N]; [injection C as <- <- <-; exact I|].
    destruct (Nat.ltb i col); [|discriminate]. destruct I as [I1 I2]. eapply IH; eauto.
Qed.

Lemma close_eq : forall o i col d c' d' o', close_to i col d o = Some (c', d', o') -> c' = i.
Proof.
  induction o as [|[[c1 d1] h1] o IH]; intros i col d c' d' o' C; cbn [close_to] in C.
  - destruct (Nat.eqb_spec i col) as [->|N]; [congruence|]. destruct (Nat.ltb i col); discriminate.
  - destruct (Nat.eqb_spec i col) as [->|N]; [congruence|]. destruct (Nat.ltb i col); [|discriminate]. eapply IH; eauto.
Qed.

Lemma read_line_increasing : forall s line s', increasing (r_col s) (r_open s) -> read_line s line = Some s' ->
  increasing (r_col s') (r_open s').
Proof.
  intros s line s' I H. unfold read_line in H. destruct (ignored line); [congruence|].
  assert (A : forall l c d o, increasing c o -> increasing (r_col (add_line l (c, d, o))) (r_open (add_line l (c, d, o)))).
  { intros l c d o J. unfold add_line. destruct (opens l); exact J. }
  destruct (r_head s) as [h|].
  - destruct (Nat.ltb_spec (r_col s) (column line)); [|discriminate].
    assert (s' = add_line (content line) (column line, [], (r_col s, r_done s, h) :: r_open s)) by congruence. subst s'.
    apply A. split; assumption.
  - destruct (close_to _ _ _ _) as [[[c' d'] o']|] eqn:C; [|discriminate]. cbn [option_map] in H.
    assert (s' = add_line (content line) (c', d', o')) by congruence. subst s'.
    apply A. eapply close_increasing; eauto.
Qed.

Lemma read_lines_increasing : forall lines s s', increasing (r_col s) (r_open s) -> read_lines s lines = Some s' ->
  increasing (r_col s') (r_open s').
Proof.
  induction lines as [|l lines IH]; intros s s' I H; cbn [read_lines] in H; [congruence|].
  destruct (read_line s l) as [s1|] eqn:E; [|discriminate]. eapply IH; [|exact H]. eapply read_line_increasing; eauto.
Qed.

Definition start : reader := Reader 0 [] [] None.

Lemma start_inv : forall lines s, read_lines start lines = Some s ->
  bottom (r_col s) (r_open s) = 0 /\
  (forall c d o, close_to 0 (r_col s) (r_done s) (r_open s) = Some (c, d, o) -> o = []).
Proof.
  intros lines s H. split; [exact (read_lines_bottom _ _ _ H)|]. intros c d o C.
  assert (I : increasing (r_col s) (r_open s)) by (eapply read_lines_increasing; [|exact H]; exact I).
  pose proof (close_increasing _ _ _ _ _ _ _ I C) as I'. apply close_eq in C. subst c.
  destruct o as [|[[c1 d1] h1] o]; [reflexivity|]. destruct I' as [I' _]. lia.
Qed.

(** Lines that are all ignored. *)
Lemma read_ignored : forall lines r, forallb ignored lines = true -> read_lines r lines = Some r.
Proof.
  induction lines as [|l lines IH]; intros r H; [reflexivity|]. cbn [forallb] in H.
  apply andb_true_iff in H as [H1 H2]. cbn [read_lines]. unfold read_line. rewrite H1. auto.
Qed.

Lemma ignored_map : forall k lines, forallb ignored (map (fun line => spaces k ++ line) lines) = forallb ignored lines.
Proof.
  intros k lines. induction lines as [|l lines IH]; [reflexivity|]. cbn [map forallb]. now rewrite ignored_spaces, IH.
Qed.

Lemma split_ignored : forall lines, forallb ignored lines = true \/
  exists pre l post, lines = pre ++ l :: post /\ forallb ignored pre = true /\ ignored l = false.
Proof.
  induction lines as [|l lines IH]; [now left|]. destruct (ignored l) eqn:I.
  - destruct IH as [IH|(pre & x & post & -> & A & B)].
    + left. cbn [forallb]. now rewrite I.
    + right. exists (l :: pre), x, post. repeat split; auto. cbn [forallb]. now rewrite I.
  - right. exists [], l, lines. repeat split; auto.
Qed.

(** The first counting line, from a state that is ready. *)
Lemma first_line_emb : forall k r done open pre l post, ready k r done open ->
  forallb ignored pre = true -> ignored l = false -> column l = 0 ->
  read_lines r (map (fun line => spaces k ++ line) (pre ++ l :: post)) =
  option_map (emb k done open) (read_lines start (pre ++ l :: post)).
Proof.
  intros k r done open pre l post R I1 I2 C. rewrite map_app, read_lines_app.
  rewrite read_ignored by (now rewrite ignored_map). rewrite read_lines_app, (read_ignored pre start I1).
  cbn [map read_lines].
  rewrite (read_ready k r done open) by (rewrite ?ignored_spaces, ?column_spaces, ?C; auto).
  rewrite content_spaces.
  assert (E : read_line start l = Some (add_line (content l) (0, [], []))).
  { unfold read_line. rewrite I2, C. reflexivity. }
  rewrite E. pose proof (add_line_emb k done open (content l) 0 [] []) as A.
  cbn [emb_done emb_open app] in A. rewrite Nat.add_0_r in A. rewrite A.
  apply read_lines_emb. rewrite add_line_bottom. reflexivity.
Qed.

Lemma not_margin_none : forall pre l post, forallb ignored pre = true -> ignored l = false -> column l <> 0 ->
  read_lines start (pre ++ l :: post) = None.
Proof.
  intros pre l post I1 I2 C. rewrite read_lines_app, (read_ignored pre start I1). cbn [read_lines].
  unfold read_line. rewrite I2. unfold start. cbn [r_head r_col r_done r_open close_to].
  destruct (Nat.eqb_spec (column l) 0); [contradiction|]. destruct (Nat.ltb_spec (column l) 0); [lia|]. reflexivity.
Qed.

Lemma read_py : forall k r done open lines ts, ready k r done open -> read_blocks lines = Some ts ->
  exists r', read_lines r (map (fun line => spaces k ++ line) lines) = Some r' /\
    ((ts = [] /\ r' = r) \/ after k r' (rev ts ++ done) open).
Proof.
  intros k r done open lines ts R H. destruct (split_ignored lines) as [I|(pre & l & post & -> & I1 & I2)].
  - exists r. rewrite read_ignored by (now rewrite ignored_map). split; [reflexivity|].
    unfold read_blocks in H. rewrite read_ignored in H by assumption. cbn in H. left. split; congruence.
  - unfold read_blocks in H. destruct (read_lines (Reader 0 [] [] None) (pre ++ l :: post)) as [s|] eqn:E; [|discriminate].
    assert (C : column l = 0).
    { destruct (Nat.eq_dec (column l) 0) as [C|C]; [assumption|].
      pose proof (not_margin_none pre l post I1 I2 C) as N0. unfold start in N0. congruence. }
    exists (emb k done open s). pose proof (first_line_emb k r done open pre l post R I1 I2 C) as F.
    unfold start in F. rewrite E in F. split; [exact F|]. right.
    destruct (start_inv _ _ E) as [B Z]. now apply emb_after.
Qed.

(** ** Blocks *)

Section BlkInd.
Variable Q : blk -> Prop.
Hypothesis HTx : forall t g, Q (Tx t g).
Hypothesis HSt : forall p, Q (St p).
Hypothesis HBl : forall h b, Forall Q b -> Q (Bl h b).
Hypothesis HPy : forall l, Q (Py l).
Fixpoint blk_ind' (b : blk) : Q b :=
  match b with
  | Tx t g => HTx t g
  | St p => HSt p
  | Bl h body => HBl h body ((fix all (l : list blk) : Forall Q l :=
      match l with [] => Forall_nil _ | m :: l' => Forall_cons _ (blk_ind' m) (all l') end) body)
  | Py l => HPy l
  end.
End BlkInd.

Section Read.
Variable P : char -> bool.

Fixpoint wf_blk (b : blk) : Prop :=
  match b with
  | Tx t g => True
  | St p => visible (show P p) /\ opens (show P p) = false
  | Bl h body => visible (show P h) /\ opens (show P h) = true /\
      (fix go (l : list blk) : Prop := match l with [] => True | c :: l' => wf_blk c /\ go l' end) body
  | Py lines => at_margin lines
  end.
Definition wf_blks (l : list blk) : Prop := Forall wf_blk l.

Lemma wf_block : forall h body, wf_blk (Bl h body) <-> visible (show P h) /\ opens (show P h) = true /\ wf_blks body.
Proof.
  intros h body. cbn [wf_blk].
  assert (E : (fix go (l : list blk) : Prop := match l with [] => True | c :: l' => wf_blk c /\ go l' end) body <-> wf_blks body).
  { induction body as [|b body IH]; [split; intros; constructor|]. split.
    - intros [A B]. constructor; [assumption | now apply IH].
    - intros F. inversion F as [|? ? A B]. split; [assumption | now apply IH]. }
  rewrite E. reflexivity.
Qed.

Lemma opens_end : forall a c, is_space c = false -> opens (a ++ [c]) = N.eqb c c_colon.
Proof.
  intros a c H. unfold opens, rstrip. rewrite rev_app_distr. cbn [rev app dropwhile]. rewrite H.
  rewrite rev_involutive. reflexivity.
Qed.

Lemma repr_quote : forall s, exists a q, repr P s = a ++ [q] /\ (q = 39 \/ q = 34)%N.
Proof.
  intros s. unfold repr. set (q := if cmem c_sq s && negb (cmem c_dq s) then c_dq else c_sq).
  exists ([q] ++ flat_map (repr_char P q) s), q. split; [now rewrite app_assoc|].
  unfold q; destruct (_ && _); auto.
Qed.

Lemma text_line_ok : forall g t, visible (show P (PText g t)) /\ opens (show P (PText g t)) = false.
Proof.
  intros g t. destruct (repr_quote t) as (a & q & E & Q).
  assert (O : forall p, opens (p ++ repr P t) = false).
  { intros p. rewrite E, app_assoc, opens_end; [destruct Q as [-> | ->]; reflexivity|]. destruct Q as [-> | ->]; reflexivity. }
  destruct g as [g|]; cbn [show show_guarded].
  - split; [split; [reflexivity | discriminate]|]. rewrite !app_assoc. apply O.
  - split; [split; [reflexivity | discriminate]|]. apply O.
Qed.

Lemma readings_block : forall h body, reading P (Bl h body) =
  match readings P body with Some [] => None | Some b' => Some [TBlock (show P h) b'] | None => None end.
Proof. reflexivity. Qed.

Definition reads (b : blk) : Prop := forall k r done open ts, ready k r done open -> reading P b = Some ts ->
  exists r', read_lines r (layout P k b) = Some r' /\ ((ts = [] /\ r' = r) \/ after k r' (rev ts ++ done) open).

Lemma reads_list : forall l, Forall reads l -> forall k r done open ts, ready k r done open -> readings P l = Some ts ->
  exists r', read_lines r (layouts P k l) = Some r' /\ ((ts = [] /\ r' = r) \/ after k r' (rev ts ++ done) open).
Proof.
  intros l F. induction F as [|b l B F IH]; intros k r done open ts R H.
  - injection H as <-. exists r. split; [reflexivity | now left].
  - cbn [readings] in H. destruct (reading P b) as [x|] eqn:E1; [|discriminate].
    destruct (readings P l) as [y|] eqn:E2; [|discriminate]. injection H as <-.
    destruct (B k r done open x R E1) as (r1 & L1 & A1).
    change (layouts P k (b :: l)) with (layout P k b ++ layouts P k l). rewrite read_lines_app, L1.
    destruct A1 as [[-> ->]|A1].
    + destruct (IH k r done open y R eq_refl) as (r2 & L2 & A2). exists r2. split; [exact L2|]. exact A2.
    + destruct (IH k r1 (rev x ++ done) open y (or_introl A1) eq_refl) as (r2 & L2 & A2). exists r2. split; [exact L2|].
      right. destruct A2 as [[-> ->]|A2]; [now rewrite app_nil_r|].
      rewrite rev_app_distr, <- app_assoc. exact A2.
Qed.

Lemma read_stmt : forall k r done open line, ready k r done open -> visible line -> opens line = false ->
  exists r', read_lines r [spaces k ++ line] = Some r' /\ after k r' (TStmt line :: done) open.
Proof.
  intros k r done open line R V O. destruct (visible_line line V) as (I & C & D).
  cbn [read_lines]. rewrite (read_ready k r done open) by (rewrite ?ignored_spaces, ?column_spaces, ?C; auto).
  rewrite content_spaces, D. eexists. split; [reflexivity|]. now apply after_stmt.
Qed.

Lemma all_read : forall b, wf_blk b -> reads b.
Proof.
  induction b using blk_ind'; intros W k r done open ts R H0.
  - destruct (text_line_ok (truthy_guard g) t) as [V O].
    destruct (read_stmt k r done open _ R V O) as (r' & L & A). exists r'. split; [exact L|]. right.
    injection H0 as <-. exact A.
  - destruct W as [V O]. destruct (read_stmt k r done open _ R V O) as (r' & L & A). exists r'. split; [exact L|]. right.
    injection H0 as <-. exact A.
  - apply wf_block in W. destruct W as (V & O & W). rewrite readings_block in H0.
    destruct (readings P b) as [bs|] eqn:E; [|discriminate]. destruct bs as [|b0 bs]; [discriminate|].
    injection H0 as <-. rewrite layout_block.
    destruct (visible_line _ V) as (I & C & D). cbn [read_lines].
    rewrite (read_ready k r done open) by (rewrite ?ignored_spaces, ?column_spaces, ?C; auto).
    rewrite content_spaces, D.
    pose proof (pending_head k done open (show P h) O) as PH.
    assert (F : Forall reads b).
    { rewrite Forall_forall in H |- *. intros x Hx. apply H; [assumption|]. unfold wf_blks in W.
      rewrite Forall_forall in W. now apply W. }
    destruct (reads_list b F (4 + k) _ _ _ _ (or_intror PH) E) as (r' & L & A). exists r'. split; [exact L|]. right.
    destruct A as [[A _]|A]; [discriminate|]. rewrite app_nil_r in A. apply after_close in A.
    rewrite rev_involutive in A. exact A.
  - cbn [reading] in H0. cbn [layout]. now apply read_py.
Qed.

Lemma read_back : forall l ts, wf_blks l -> readings P l = Some ts -> read_blocks (layouts P 0 l) = Some ts.
Proof.
  intros l ts W H. assert (F : Forall reads l) by (eapply Forall_impl; [|exact W]; apply all_read).
  assert (R : ready 0 start [] []) by (left; split; reflexivity).
  destruct (reads_list l F 0 start [] [] ts R H) as (r' & L & A).
  unfold read_blocks. fold start. rewrite L. destruct A as [[-> ->]|[A1 A2]]; [reflexivity|].
  unfold read_end. rewrite A1, A2. cbn [option_map fst snd]. now rewrite app_nil_r, rev_involutive.
Qed.

(** ** Rejection *)

(** The first counting line is at column [k] or further left. *)
Definition low (k : nat) (rest : list str) : Prop :=
  forall pre l post, rest = pre ++ l :: post -> forallb ignored pre = true -> ignored l = false -> column l <= k.

Definition finish (r : reader) (lines : list str) : option (list tblock) :=
  match read_lines r lines with Some r' => read_end r' | None => None end.

Lemma finish_app : forall a b r, finish r (a ++ b) = match read_lines r a with Some r' => finish r' b | None => None end.
Proof. intros. unfold finish. rewrite read_lines_app. destruct (read_lines r a); reflexivity. Qed.

(** A header that nothing deeper follows. *)
Lemma head_fails : forall r h k rest, r_head r = Some h -> k <= r_col r -> low k rest -> finish r rest = None.
Proof.
  intros r h k rest H K Lo. destruct (split_ignored rest) as [I|(pre & l & post & -> & I1 & I2)].
  - unfold finish. rewrite read_ignored by assumption. unfold read_end. now rewrite H.
  - rewrite finish_app, read_ignored by assumption. unfold finish. cbn [read_lines]. unfold read_line.
    rewrite I2, H. specialize (Lo pre l post eq_refl I1 I2). destruct (Nat.ltb_spec (r_col r) (column l)); [lia|]. reflexivity.
Qed.

Lemma low_mono : forall k k' rest, k <= k' -> low k rest -> low k' rest.
Proof. intros k k' rest H Lo pre l post E I1 I2. specialize (Lo pre l post E I1 I2). lia. Qed.

Lemma split_unique : forall pre l post pre' l' post', pre ++ l :: post = pre' ++ l' :: post' ->
  forallb ignored pre = true -> ignored l = false -> forallb ignored pre' = true -> ignored l' = false -> l = l'.
Proof.
  induction pre as [|x pre IH]; intros l post pre' l' post' E A B A' B'.
  - destruct pre' as [|y pre']; [cbn in E; congruence|]. cbn in E. injection E as <- _. cbn [forallb] in A'.
    rewrite B in A'. discriminate.
  - destruct pre' as [|y pre'].
    + cbn in E. injection E as <- _. cbn [forallb] in A. rewrite B' in A. discriminate.
    + cbn in E. injection E as <- E. cbn [forallb] in A, A'. apply andb_true_iff in A as [_ A]. apply andb_true_iff in A' as [_ A'].
      eapply IH; eauto.
Qed.

Lemma low_app : forall k a b, (forall pre l post, a = pre ++ l :: post -> forallb ignored pre = true -> ignored l = false ->
  column l <= k) -> low k b -> low k (a ++ b).
Proof.
  intros k a b A B pre l post E I1 I2. destruct (split_ignored a) as [I|(pa & la & qa & -> & J1 & J2)].
  - assert (exists pre', pre = a ++ pre' /\ b = pre' ++ l :: post).
    { clear - E I I2. revert pre E. induction a as [|x a IH]; intros pre E; [exists pre; auto|].
      cbn [forallb] in I. apply andb_true_iff in I as [Ix I]. destruct pre as [|y pre].
      - cbn in E. injection E as <- _. congruence.
      - cbn in E. injection E as <- E. destruct (IH I pre E) as (p' & -> & ->). exists p'. auto. }
    destruct H as (p' & -> & ->). rewrite forallb_app in I1. apply andb_true_iff in I1 as [_ I1].
    eapply B; eauto.
  - rewrite <- app_assoc in E. cbn [app] in E.
    pose proof (split_unique _ _ _ _ _ _ E J1 J2 I1 I2) as <-. eapply A; eauto.
Qed.

Lemma margin_low : forall k lines, at_margin lines -> low k (map (fun line => spaces k ++ line) lines).
Proof.
  intros k lines. induction lines as [|x lines IH]; intros W pre l post E I1 I2; [destruct pre; discriminate|].
  cbn [map] in E. cbn [at_margin] in W. destruct pre as [|y pre].
  - cbn [app] in E. injection E as <- _. rewrite ignored_spaces in I2. rewrite I2 in W.
    rewrite column_spaces, W. lia.
  - cbn [app] in E. injection E as <- E. cbn [forallb] in I1. apply andb_true_iff in I1 as [J I1].
    rewrite ignored_spaces in J. rewrite J in W. eapply IH; eauto.
Qed.

Lemma line_low : forall k line tl, visible line -> low k ((spaces k ++ line) :: tl).
Proof.
  intros k line tl V pre l post E I1 I2. destruct (visible_line line V) as (I & C & _).
  assert (J : ignored (spaces k ++ line) = false) by (now rewrite ignored_spaces).
  symmetry in E. pose proof (split_unique pre l post [] (spaces k ++ line) tl E I1 I2 eq_refl J) as ->.
  rewrite column_spaces, C. lia.
Qed.

Lemma blk_low : forall k b, wf_blk b -> low k (layout P k b).
Proof.
  intros k [t g|p|h body|lines] W.
  - apply line_low. apply text_line_ok.
  - apply line_low. apply W.
  - rewrite layout_block. apply line_low. apply wf_block in W. apply W.
  - apply margin_low. exact W.
Qed.

Lemma blks_low : forall k l rest, wf_blks l -> low k rest -> low k (layouts P k l ++ rest).
Proof.
  intros k l rest W Lo. induction W as [|b l B W IH]; [exact Lo|].
  change (layouts P k (b :: l)) with (layout P k b ++ layouts P k l). rewrite <- app_assoc.
  apply low_app; [|exact IH]. exact (blk_low k b B).
Qed.

Definition rejects (b : blk) : Prop := forall k r done open rest, ready k r done open -> reading P b = None ->
  low k rest -> finish r (layout P k b ++ rest) = None.

Lemma rejects_list : forall l, wf_blks l -> Forall rejects l -> forall k r done open rest, ready k r done open ->
  readings P l = None -> low k rest -> finish r (layouts P k l ++ rest) = None.
Proof.
  intros l W F. induction F as [|b l B F IH]; intros k r done open rest R H Lo; [discriminate|].
  inversion W as [|? ? Wb Wl]; subst.
  change (layouts P k (b :: l)) with (layout P k b ++ layouts P k l). rewrite <- app_assoc.
  cbn [readings] in H. destruct (reading P b) as [x|] eqn:E1.
  - destruct (readings P l) as [y|] eqn:E2; [discriminate|]. rewrite finish_app.
    destruct (all_read b Wb k r done open x R E1) as (r1 & L1 & A1). rewrite L1.
    destruct A1 as [[-> ->]|A1]; eapply IH; eauto. left. exact A1.
  - eapply B; eauto. now apply blks_low.
Qed.

Lemma reject_py : forall lines, at_margin lines -> rejects (Py lines).
Proof.
  intros lines W k r done open rest R H Lo. cbn [reading layout] in *.
  destruct (split_ignored lines) as [I|(pre & l & post & -> & I1 & I2)].
  { unfold read_blocks in H. rewrite read_ignored in H by assumption. discriminate. }
  assert (C : column l = 0).
  { clear - W I1 I2. induction pre as [|x pre IH]; cbn [app at_margin] in W.
    - now rewrite I2 in W.
    - cbn [forallb] in I1. apply andb_true_iff in I1 as [J I1]. rewrite J in W. auto. }
  rewrite finish_app, (first_line_emb k r done open pre l post R I1 I2 C).
  unfold read_blocks in H. fold start in H.
  destruct (read_lines start (pre ++ l :: post)) as [s|] eqn:E; [|reflexivity]. cbn [option_map].
  destruct (start_inv _ _ E) as [B Z]. unfold read_end in H. destruct (r_head s) as [h|] eqn:Hd.
  - apply (head_fails _ h k); [exact Hd | unfold emb; cbn [r_col]; lia | exact Lo].
  - destruct (close_to 0 (r_col s) (r_done s) (r_open s)) as [[[c' d'] o']|] eqn:Cl; [discriminate|].
    exfalso. destruct (close_zero (r_open s) (r_col s) (r_done s) B) as (d' & [C1|(o' & C1)]); congruence.
Qed.

Lemma readings_ignored : forall k l, wf_blks l -> readings P l = Some [] -> forallb ignored (layouts P k l) = true.
Proof.
  intros k l W. induction W as [|b l B W IH]; intros H; [reflexivity|]. cbn [readings] in H.
  destruct (reading P b) as [x|] eqn:E1; [|discriminate]. destruct (readings P l) as [y|] eqn:E2; [|discriminate].
  injection H as H. apply app_eq_nil in H as [-> ->].
  change (layouts P k (b :: l)) with (layout P k b ++ layouts P k l). rewrite forallb_app, IH by reflexivity.
  rewrite andb_true_r. destruct b as [t g|p|h body|lines]; try discriminate.
  - rewrite readings_block in E1. destruct (readings P body) as [[|]|]; discriminate.
  - cbn [reading] in E1. cbn [layout]. rewrite ignored_map. destruct (split_ignored lines) as [I|(pre & l1 & post & -> & I1 & I2)]; [exact I|].
    exfalso. cbn [wf_blk] in B.
    unfold read_blocks in E1. destruct (read_lines (Reader 0 [] [] None) (pre ++ l1 :: post)) as [s|] eqn:E; [|discriminate].
    destruct (start_inv _ _ E) as [Bo Z].
    assert (NE : forall lines s s', r_done s <> [] \/ r_open s <> [] \/ r_head s <> None ->
      read_lines s lines = Some s' -> r_done s' <> [] \/ r_open s' <> [] \/ r_head s' <> None).
    { clear. induction lines as [|x lines IH]; intros s s' D H; cbn [read_lines] in H; [injection H as <-; exact D|].
      destruct (read_line s x) as [s1|] eqn:E; [|discriminate]. apply (IH s1 s'); [|exact H]. clear - D E.
      unfold read_line in E. destruct (ignored x); [injection E as <-; exact D|].
      assert (A : forall z, r_done (add_line (content x) z) <> [] \/ r_open (add_line (content x) z) <> [] \/
                   r_head (add_line (content x) z) <> None).
      { intros [[c d] o]. unfold add_line. destruct (opens (content x)); cbn [r_done r_open r_head]; [right; right | left]; discriminate. }
      destruct (r_head s) as [h|].
      - destruct (Nat.ltb _ _); [|discriminate].
        apply (f_equal (fun o => match o with Some v => v | None => s end)) in E. rewrite <- E. apply A.
      - destruct (close_to _ _ _ _) as [z|]; [|discriminate]. injection E as <-. apply A. }
    rewrite read_lines_app, (read_ignored pre _ I1) in E. cbn [read_lines] in E.
    destruct (read_line (Reader 0 [] [] None) l1) as [s1|] eqn:E0; [|discriminate].
    assert (D1 : r_done s1 <> [] \/ r_open s1 <> [] \/ r_head s1 <> None).
    { unfold read_line in E0. rewrite I2 in E0. cbn [r_head r_col r_done r_open] in E0.
      destruct (close_to _ _ _ _) as [[[c d] o]|]; [|discriminate]. injection E0 as <-. unfold add_line.
      destruct (opens (content l1)); cbn [r_done r_open r_head]; [right; right | left]; discriminate. }
    pose proof (NE _ _ _ D1 E) as D. clear - D E1 Z. unfold read_end in E1. destruct (r_head s) as [|] eqn:Hd; [discriminate|].
    destruct (close_to 0 (r_col s) (r_done s) (r_open s)) as [[[c d] o]|] eqn:Cl; [|discriminate]. cbn [option_map fst snd] in E1.
    assert (d = []) by (destruct d as [|y d]; [reflexivity|]; injection E1 as E1; cbn [rev] in E1; now destruct (rev d)).
    subst d. clear E1.
    assert (X : forall o i col d c o', close_to i col d o = Some (c, [], o') -> d = [] /\ o = o').
    { clear. induction o as [|[[c1 d1] h1] o IH]; intros i col d c o' C; cbn [close_to] in C.
      - destruct (Nat.eqb i col); [injection C as -> -> ->; auto|]. destruct (Nat.ltb i col); discriminate.
      - destruct (Nat.eqb i col); [injection C as -> -> ->; auto|]. destruct (Nat.ltb i col); [|discriminate].
        apply IH in C as [C _]. discriminate. }
    destruct (X _ _ _ _ _ _ Cl) as [Xd Xo]. pose proof (Z _ _ _ eq_refl) as Zo.
    destruct D as [D|[D|D]]; congruence.
Qed.

Lemma all_reject : forall b, wf_blk b -> rejects b.
Proof.
  induction b using blk_ind'; intros W; try (intros k r done open rest R H0; discriminate).
  - intros k r done open rest R H0 Lo. pose proof W as W'. apply wf_block in W. destruct W as (V & O & W).
    rewrite readings_block in H0. rewrite layout_block. cbn [app].
    destruct (visible_line _ V) as (I & C & D). unfold finish. cbn [read_lines].
    rewrite (read_ready k r done open) by (rewrite ?ignored_spaces, ?column_spaces, ?C; auto).
    rewrite content_spaces, D. pose proof (pending_head k done open (show P h) O) as PH.
    set (r1 := add_line (show P h) (k, done, open)) in *.
    change (finish r1 (layouts P (4 + k) b ++ rest) = None).
    destruct (readings P b) as [[|x bs]|] eqn:E.
    + rewrite finish_app, read_ignored by (apply readings_ignored; assumption).
      destruct PH as (h0 & Hh & _). apply (head_fails r1 h0 k); [exact Hh | | exact Lo].
      unfold r1, add_line. rewrite O. cbn [r_col]. lia.
    + discriminate.
    + eapply rejects_list; [exact W | | right; exact PH | exact E | eapply low_mono; [|exact Lo]; lia].
      rewrite Forall_forall in H |- *. intros x Hx. apply H; [assumption|]. unfold wf_blks in W.
      rewrite Forall_forall in W. now apply W.
  - apply reject_py. exact W.
Qed.

Theorem read_layouts : forall l, wf_blks l -> read_blocks (layouts P 0 l) = readings P l.
Proof.
  intros l W. destruct (readings P l) as [ts|] eqn:E; [now apply read_back|].
  assert (F : Forall rejects l) by (eapply Forall_impl; [|exact W]; apply all_reject).
  assert (R : ready 0 start [] []) by (left; split; reflexivity).
  assert (Lo : low 0 []) by (intros pre x post Hx; destruct pre; discriminate).
  pose proof (rejects_list l W F 0 start [] [] [] R E Lo) as H. rewrite app_nil_r in H. exact H.
Qed.

(** ** Tidy templates *)

Lemma wf_join : forall l, wf_blks l -> wf_blks (join_texts l).
Proof.
  intros l W. induction W as [|b l B W IH]; [constructor|]. destruct b as [t g|p|h body|lines]; cbn [join_texts]; try (constructor; assumption).
  destruct (join_texts l) as [|[t' g'|p|h body|lines] r]; try (constructor; assumption).
  inversion IH; subst. destruct (oseqb g g'); repeat constructor; assumption.
Qed.

Lemma opens_colon : forall a, opens (a ++ L ":") = true.
Proof. intros a. exact (opens_end a c_colon eq_refl). Qed.

Lemma opens_app : forall a b, opens b = false -> opens a = false -> opens (a ++ b) = false.
Proof.
  intros a b Hb Ha. unfold opens, rstrip in *. rewrite rev_involutive in *. rewrite rev_app_distr.
  induction (rev b) as [|c r IH]; [exact Ha|]. cbn [app dropwhile] in *. destruct (is_space c); [auto | exact Hb].
Qed.

Lemma opens_paren : forall a, opens (a ++ L ")") = false.
Proof. intros a. exact (opens_end a c_rpar eq_refl). Qed.

Definition line_ok (p : pstmt) : Prop := visible (show P p) /\ opens (show P p) = false.
Definition head_ok (p : pstmt) : Prop := visible (show P p) /\ opens (show P p) = true.

Ltac vis := split; [reflexivity | discriminate].

Lemma yield_ok : forall e, no_colon e -> line_ok (PYield e).
Proof. intros e H. split; [vis|]. apply opens_app; [exact H | reflexivity]. Qed.

Lemma visible_app : forall a b, visible a -> visible (a ++ b).
Proof. intros [|c a] b V; [destruct V | exact V]. Qed.

Lemma assign_ok : forall k e, visible k -> no_colon e -> line_ok (PAssign k e).
Proof.
  intros k e V H. split; [now apply visible_app|]. cbn [show]. rewrite app_assoc. apply opens_app; [exact H|].
  change (L " = ") with (L " =" ++ L " "). rewrite app_assoc. apply opens_app; [reflexivity|].
  change (L " =") with (L " " ++ [c_eq]). rewrite app_assoc. apply (opens_end _ c_eq). reflexivity.
Qed.

Lemma collect_ok : forall n, visible n -> line_ok (PCollect n).
Proof.
  intros n V. split; [now apply visible_app|]. cbn [show]. change (L "())") with (L "()" ++ L ")"). rewrite !app_assoc. apply opens_paren.
Qed.

Lemma trans_ok : forall t g, line_ok (trans_stmt t g).
Proof.
  intros t g. unfold trans_stmt. destruct (strip t); [apply text_line_ok|].
  split; destruct (truthy_guard g); cbn [show show_guarded]; try vis; rewrite !app_assoc; apply opens_paren.
Qed.

Ltac head := split; [vis|]; cbn [show]; rewrite ?app_assoc;
  try (change (L "):") with (L ")" ++ L ":")); try (change (L "():") with (L "()" ++ L ":")); rewrite ?app_assoc;
  apply opens_colon.

Lemma wf_Bl : forall h body, head_ok h -> wf_blks body -> wf_blk (Bl h body).
Proof. intros h body [A B] W. apply wf_block. auto. Qed.

Lemma tidy_go : forall (Q : node -> Prop) l,
  (fix go (l : list node) : Prop := match l with [] => True | m :: l' => Q m /\ go l' end) l -> Forall Q l.
Proof. intros Q l. induction l as [|m l IH]; intros H; [constructor|]. destruct H. constructor; auto. Qed.

Lemma go_flat : forall l, (fix go (l : list node) : list blk :=
  match l with [] => [] | m :: l' => program m ++ go l' end) l = flat_map program l.
Proof. induction l as [|m l IH]; [reflexivity|]. cbn [flat_map]. now rewrite <- IH. Qed.

Lemma wf_flat : forall l, Forall (fun n => tidy n -> wf_blks (program n)) l -> Forall tidy l ->
  wf_blks (join_texts (flat_map program l)).
Proof.
  intros l F T. apply wf_join. induction F as [|n l B F IH]; [constructor|]. inversion T; subst.
  cbn [flat_map]. apply Forall_app. split; [now apply B | now apply IH].
Qed.

Lemma wf_program : forall n, tidy n -> wf_blks (program n).
Proof.
  induction n using node_ind'; intros T; cbn [tidy program] in *; rewrite ?go_flat;
    try (apply tidy_go in T; pose proof (wf_flat _ H T) as W).
  - constructor; [|constructor]. split; [vis | reflexivity].
  - constructor; [|constructor]. split; [vis|]. cbn [show]. change (L ", self.__globals__)") with (L ", self.__globals__" ++ L ")").
    rewrite !app_assoc. apply opens_paren.
  - constructor; [|constructor]. split; [vis|]. cbn [show].
    change (L ", None, self.__globals__).__main__()") with (L ", None, self.__globals__).__main__(" ++ L ")").
    rewrite !app_assoc. apply opens_paren.
  - constructor; [|constructor]. split; [vis|]. cbn [show].
    change (L ").__main__()") with (L ").__main__(" ++ L ")").
    rewrite !app_assoc. apply opens_paren.
  - constructor; [destruct i; (split; [vis | reflexivity])|]. constructor; [|constructor].
    apply wf_Bl; [head|]. destruct b; [|exact W]. constructor; [|constructor]. split; [vis | reflexivity].
  - destruct T as [Tc T]. apply tidy_go in T. pose proof (wf_flat _ H T) as W.
    constructor; [split; [vis | reflexivity]|]. constructor; [apply wf_Bl; [head | exact W]|].
    constructor; [|constructor]. now apply yield_ok.
  - constructor; [|constructor]. apply wf_Bl; [head | exact W].
  - destruct T as [Tc T]. apply tidy_go in T. pose proof (wf_flat _ H T) as W.
    constructor.
    + split; [vis|]. cbn [show]. change (L "])") with (L "]" ++ L ")"). rewrite !app_assoc. apply opens_paren.
    + apply Forall_app. split.
      * clear - Tc. induction Tc as [|kv v [A B] Tc IH]; [constructor|]. cbn [map]. constructor; [|exact IH].
        now apply assign_ok.
      * apply Forall_app. split; [exact W|]. constructor; [|constructor]. split; [vis|]. cbn [show].
        change (L ",) = local.__kj__.pop_with()") with (L ",) = local.__kj__.pop_with(" ++ L ")"). rewrite !app_assoc. apply opens_paren.
  - constructor; [split; [vis|]; cbn [show]; rewrite !app_assoc; apply opens_paren|].
    constructor; [split; [vis | reflexivity]|]. apply Forall_app. split; [exact W|].
    constructor; [|constructor]. split; [vis | reflexivity].
  - constructor; [|constructor]. apply wf_Bl; [head | exact W].
  - constructor; [|constructor]. apply wf_Bl; [head | exact W].
  - constructor; [|constructor]. apply wf_Bl; [split; [vis | reflexivity] | exact W].
  - constructor; [exact I | constructor].
  - constructor; [apply trans_ok | constructor].
  - constructor; [|constructor]. destruct s; [now apply yield_ok; apply T|].
    split; [vis|]. cbn [show]. rewrite !app_assoc. apply opens_paren.
  - destruct T as (T1 & T2 & T3 & T). apply tidy_go in T. pose proof (wf_flat _ H T) as W.
    assert (A : forall g0, visible g0 -> wf_blks
      [Bl (PDefGen g0) (match v with [] => [Tx [] None] | _ => join_texts (flat_map program v) end);
       St (PCollect g0); Bl (PForAttr x a g0 m) [St (PYield x)]]).
    { intros g0 V. constructor; [apply wf_Bl; [head|]|].
      - destruct v; [repeat constructor | exact W].
      - constructor; [now apply collect_ok|]. constructor; [|constructor]. apply wf_Bl; [head|].
        constructor; [now apply yield_ok | constructor]. }
    assert (G : forall v0 : list node, v0 = v -> match v0 with
      | [] => [Tx [] None]
      | _ :: _ => join_texts (flat_map program v0) end = match v with [] => [Tx [] None] | _ => join_texts (flat_map program v) end)
      by (intros; subst; reflexivity).
    destruct (truthy_guard g).
    + constructor; [|constructor]. apply wf_Bl; [head|]. now apply A.
    + now apply A.
  - assert (A : wf_blk (Bl (PForAttrs x e m) [St (PYield x)])).
    { apply wf_Bl; [head|]. constructor; [now apply yield_ok | constructor]. }
    destruct (truthy_guard g); (constructor; [|constructor]); [|exact A].
    apply wf_Bl; [head|]. constructor; [exact A | constructor].
  - constructor; [exact T | constructor].
Qed.

Theorem read_generated : forall t, tidy_template t ->
  read_blocks (map (line_str P) (generate_python t)) = readings P (template_program t).
Proof.
  intros t [T1 T2]. rewrite generate_layout. apply read_layouts. unfold template_program. apply Forall_app. split.
  - apply Forall_map. exact T1.
  - constructor; [|constructor; [split; [vis | reflexivity] | constructor]].
    apply wf_Bl; [split; [vis | reflexivity]|]. apply wf_flat; [|exact T2].
    apply Forall_forall. intros n _. apply wf_program.
Qed.
End Read.
