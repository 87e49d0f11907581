(** * Properties C13, C14 and C15: line number tables *)

From Coq Require Import Ascii String List ZArith Bool Sorted Lia.
From Verif Require Import PyStr M_Lnotab S_Lnotab P_Lnotab.
Import ListNotations.
Open Scope list_scope.
Open Scope Z_scope.

(** C13.  Packing increasing rows gives bytes; unpacking gives the rows back, without
    those that repeat the line before them; the interpreter reads from the packed
    table the line of the last row at or before the address. *)
Theorem C13_round_trip : forall first rows, good_table first rows ->
  exists bs, lnotab_string rows first = Ok bs /\
    Forall (fun b => 0 <= b <= 255) bs /\
    lnotab_numbers bs first = Ok (drop_redundant None rows) /\
    forall address, 0 <= address -> interpreter_line first bs address = line_at first rows address.
Proof. exact round_trip. Qed.
Print Assumptions C13_round_trip.

(** With strictly increasing lines the rows themselves come back. *)
Theorem C13_round_trip_strict : forall first rows, good_table first rows ->
  StronglySorted (fun a b => snd a < snd b) rows ->
  exists bs, lnotab_string rows first = Ok bs /\ lnotab_numbers bs first = Ok rows.
Proof.
  intros first rows G S. destruct (round_trip first rows G) as (bs & E & _ & N & _).
  exists bs; split; auto. rewrite N. f_equal. apply drop_redundant_strict; simpl; auto.
Qed.
Print Assumptions C13_round_trip_strict.

(** Nothing else is packed: rows that go back are refused. *)
Theorem C13_only_monotone : forall first rows bs, lnotab_string rows first = Ok bs ->
  StronglySorted (fun a b => fst a <= fst b /\ snd a <= snd b) ((0, first) :: rows).
Proof.
  intros first rows bs H.
  assert (N : exists bs', lnotab_loop 0 first rows = Ok bs').
  { unfold lnotab_string, lnotab in H. destruct rows as [|(o, l) rows]; [discriminate|].
    destruct (first <=? l); [|discriminate].
    destruct (lnotab_loop 0 first ((o, l) :: rows)); [eauto|discriminate]. }
  destruct N as (bs' & N). apply lnotab_loop_only in N. clear H. revert N.
  generalize 0. revert first. induction rows as [|(o', l') rows IH]; intros l o H; simpl in H.
  - constructor; constructor.
  - destruct H as (H1 & H2 & H3). specialize (IH _ _ H3).
    constructor; auto. inversion IH as [|? ? _ F]; subst. constructor; [simpl; lia|].
    eapply Forall_impl; [|exact F]. simpl; intros; lia.
Qed.
Print Assumptions C13_only_monotone.
(** The assertions of the code fail for these rows, and no table can be made of no row at all. *)
Theorem C13_refused : forall first rows,
  (lnotab_string rows first = Raise "IndexError" <-> rows = []) /\
  (lnotab_string rows first = Raise "AssertionError" <->
   rows <> [] /\ ~ StronglySorted (fun a b => fst a <= fst b /\ snd a <= snd b) ((0, first) :: rows)).
Proof.
  assert (A : forall rows o l, (exists bs, lnotab_loop o l rows = Ok bs /\ forallb is_byte bs = true) \/ lnotab_loop o l rows = Raise "AssertionError").
  { induction rows as [|[o' l'] rows IH]; intros o l; [left; now exists []|]. cbn [lnotab_loop].
    destruct (Z.geb_spec (o' - o) 0); cbn [negb]; [|now right]. destruct (Z.geb_spec (l' - l) 0); cbn [negb]; [|now right].
    destruct (IH o' l') as [(bs & -> & B)| ->]; [|now right]. left. eexists. split; [reflexivity|]. rewrite !forallb_app, B, !delta_bytes by assumption. reflexivity. }
  assert (M : forall rows o l, StronglySorted (fun a b => fst a <= fst b /\ snd a <= snd b) ((o, l) :: rows) -> exists bs, lnotab_loop o l rows = Ok bs).
  { induction rows as [|[o' l'] rows IH]; intros o l S0; [now exists []|]. apply StronglySorted_inv in S0 as [S1 F]. destruct (IH o' l' S1) as [bs E].
    apply Forall_inv in F. cbn [fst snd] in F. cbn [lnotab_loop]. rewrite E.
    destruct (Z.geb_spec (o' - o) 0); [|lia]. destruct (Z.geb_spec (l' - l) 0); [|lia]. now eexists. }
  intros first [|[o l] rows].
  { split; [easy|]. split; [discriminate|]. intros [N0 _]. now destruct N0. }
  assert (D : (exists bs, lnotab_string ((o, l) :: rows) first = Ok bs) \/ lnotab_string ((o, l) :: rows) first = Raise "AssertionError").
  { unfold lnotab_string, lnotab. destruct (first <=? l); [|now right]. destruct (A ((o, l) :: rows) 0 first) as [(bs & -> & B)| ->]; [|now right].
    left. exists bs. cbn [rbind]. now rewrite B. }
  split.
  - destruct D as [[bs ->]| ->]; split; discriminate.
  - split.
    + intros E. split; [discriminate|]. intros S0. destruct (M _ _ _ S0) as [bs L0]. unfold lnotab_string, lnotab in E.
      apply StronglySorted_inv in S0 as [_ F]. apply Forall_inv in F. cbn [fst snd] in F. destruct (Z.leb_spec first l); [|lia]. rewrite L0 in E. cbn [rbind] in E. destruct (forallb is_byte bs); discriminate.
    + intros [_ N0]. destruct D as [[bs E]|E]; [|exact E]. now apply C13_only_monotone in E.
Qed.
Print Assumptions C13_refused.
Example C13_example_refused : lnotab_string [(0, 1); (6, 3); (8, 2)] 1 = Raise "AssertionError".
Proof. reflexivity. Qed.

Example C13_example :
  (* the table of the comment in lnotab.py *)
  good_table 1 [(0, 1); (6, 2); (50, 7); (350, 307); (361, 308)] /\
  lnotab_string [(0, 1); (6, 2); (50, 7); (350, 307); (361, 308)] 1
    = Ok [0; 0; 6; 1; 44; 5; 255; 0; 45; 255; 0; 45; 11; 1] /\
  interpreter_line 1 [0; 0; 6; 1; 44; 5; 255; 0; 45; 255; 0; 45; 11; 1] 349 = 7 /\
  interpreter_line 1 [0; 0; 6; 1; 44; 5; 255; 0; 45; 255; 0; 45; 11; 1] 360 = 307.
Proof. split; [simpl; lia|]. repeat split. Qed.

(** Tables have an even number of bytes; any such table can be unpacked, and no other one. *)
Theorem C13_unpacked : forall bs first,
  ((exists rows, lnotab_numbers bs first = Ok rows) <-> Nat.Even (length bs)) /\
  (lnotab_numbers bs first = Raise "IndexError" <-> Nat.Odd (length bs)).
Proof.
  assert (A : forall bs, ((exists ps, byte_pairs bs = Ok ps) /\ Nat.Even (length bs)) \/ (byte_pairs bs = Raise "IndexError" /\ Nat.Odd (length bs))).
  { apply even_list_ind.
    - left. split; [now exists []|now exists O].
    - intros x. right. split; [reflexivity|now exists O].
    - intros x y l [[[ps E] H]|[E H]]; cbn [byte_pairs length]; rewrite E; [left|right]; (split; [try (now eexists); reflexivity|]);
        destruct H as [m ->]; exists (S m); lia. }
  intros bs first. unfold lnotab_numbers. destruct (A bs) as [[[ps ->] H]|[-> H]]; cbn [rmap rbind].
  - split; split; try discriminate; [intros _; exact H|intros _; now eexists|]. intros O0. exfalso. now apply (Nat.Even_Odd_False (length bs)).
  - split; split; try (intros _; (exact H || reflexivity)); [intros [rows E]; discriminate|]. intros E. exfalso. now apply (Nat.Even_Odd_False (length bs)).
Qed.
Print Assumptions C13_unpacked.

(** Since Python 3.6 the interpreter reads line increments as signed bytes.  The packed
    table is then right when no two neighbouring rows are more than 127 lines apart... *)
Theorem C13_signed_partial : forall first rows, good_table first rows ->
  small_gaps_from first rows ->
  exists bs, lnotab_string rows first = Ok bs /\
    forall address, 0 <= address -> interpreter_line_36 first bs address = line_at first rows address.
Proof. exact signed_ok. Qed.
Print Assumptions C13_signed_partial.

(** ... and wrong otherwise. *)
Theorem C13_signed_refuted : exists first rows bs address,
  good_table first rows /\ 0 <= address /\ lnotab_string rows first = Ok bs /\
  interpreter_line_36 first bs address < first /\ first <= line_at first rows address.
Proof.
  exists 1, [(0, 1); (6, 201)], [0; 0; 6; 200], 10.
  repeat split; try (simpl; lia); vm_compute; congruence.
Qed.
Print Assumptions C13_signed_refuted.

(** C14.  Re-annotation composes the two tables: for every list of generated lines
    (each with its template line or 0) and every table of a code object whose lines
    are among them, there is no assertion error, and every bytecode address now maps to
    the largest template line of the generated lines up to the one it mapped to. *)
Theorem C14_annotation_composes : forall lines tab first,
  is_table tab -> 1 <= first <= Z.of_nat (length lines) ->
  (forall address, 0 <= address -> interpreter_line first tab address <= Z.of_nat (length lines)) ->
  exists nfirst ntab,
    annotate (py_linenos lines) tab first = Ok (Some (nfirst, ntab)) /\
    Forall (fun b => 0 <= b <= 255) ntab /\
    forall address, 0 <= address ->
      interpreter_line nfirst ntab address =
      fold_left Z.max (firstn (Z.to_nat (interpreter_line first tab address)) lines) 0.
Proof. exact annotate_py_linenos. Qed.
Print Assumptions C14_annotation_composes.

(** In particular, where template line numbers do not decrease, the line is the one
    recorded for the generated line. *)
Theorem C14_monotone_lines_exact : forall lines tab first,
  is_table tab -> 1 <= first <= Z.of_nat (length lines) ->
  (forall address, 0 <= address -> interpreter_line first tab address <= Z.of_nat (length lines)) ->
  StronglySorted Z.le lines -> Forall (fun l => 0 <= l) lines ->
  exists nfirst ntab,
    annotate (py_linenos lines) tab first = Ok (Some (nfirst, ntab)) /\
    forall address, 0 <= address ->
      interpreter_line nfirst ntab address =
      nth (Z.to_nat (interpreter_line first tab address - 1)) lines 0.
Proof.
  intros lines tab first T F A S P.
  destruct (annotate_py_linenos lines tab first T F A) as (nf & nt & E & _ & K).
  exists nf, nt; split; auto. intros a Ha. rewrite K by auto.
  pose proof (A a Ha) as U. pose proof (interpreter_line_ge tab first a T) as G.
  rewrite fold_max_sorted with (k := Z.to_nat (interpreter_line first tab a - 1)); auto; try lia.
Qed.
Print Assumptions C14_monotone_lines_exact.

Example C14_example :
  (* four generated lines, from template lines 0 0 300 2 *)
  is_table [0; 1; 4; 1; 6; 1] /\
  annotate (py_linenos [0; 0; 300; 2]) [0; 1; 4; 1; 6; 1] 1 = Ok (Some (0, [0; 0; 4; 255; 0; 45; 6; 0])) /\
  map (interpreter_line 1 [0; 1; 4; 1; 6; 1]) [0; 3; 4; 9; 10] = [2; 2; 3; 3; 4] /\
  map (interpreter_line 0 [0; 0; 4; 255; 0; 45; 6; 0]) [0; 3; 4; 9; 10] = [0; 0; 300; 300; 300].
Proof.
  split; [split; [repeat constructor; lia | exists 3%nat; reflexivity]|]. repeat split.
Qed.

(** The code objects of Python 3.6 and later use signed increments, for instance when a
    loop jumps back to its head.  Re-annotation reads them as unsigned: the claim fails. *)
Theorem C14_signed_tables_refuted : exists lines tab first nfirst ntab address,
  0 <= address /\
  (forall a, In a [0; 2; 4; 6] -> 1 <= interpreter_line_36 first tab a <= Z.of_nat (length lines)) /\
  annotate (py_linenos lines) tab first = Ok (Some (nfirst, ntab)) /\
  interpreter_line_36 nfirst ntab address <>
  nth (Z.to_nat (interpreter_line_36 first tab address - 1)) lines 0.
Proof.
  exists [10; 20; 30], [2; 1; 2; 1; 2; 254], 1, 10, [0; 0; 2; 10; 2; 10], 6.
  split; [lia|]. split.
  { intros a H. repeat (destruct H as [<-|H]; [vm_compute; split; congruence|]). destruct H. }
  split; vm_compute; congruence.
Qed.
Print Assumptions C14_signed_tables_refuted.

(** C15.  One entry per generated line, in order, and each is the largest template
    line so far: it is one of them, or 0, and none before is larger. *)
Theorem C15_line_table : forall lines,
  length (py_linenos lines) = length lines /\
  forall n, (n < length lines)%nat ->
    let (py, tpl) := nth n (py_linenos lines) (0, 0) in
    py = Z.of_nat n + 1 /\ 0 <= tpl /\
    (forall m, (m <= n)%nat -> nth m lines 0 <= tpl) /\
    (tpl = 0 \/ exists m, (m <= n)%nat /\ nth m lines 0 = tpl).
Proof.
  intros lines; split; [apply py_linenos_length|].
  intros n H. unfold py_linenos. rewrite py_linenos_nth by auto.
  split; [lia|]. split; [apply fold_max_ge|]. split.
  - intros m Hm. rewrite <- (firstn_skipn (S n) lines) at 1.
    rewrite app_nth1 by (rewrite firstn_length; lia).
    apply fold_max_in. apply nth_In. rewrite firstn_length. lia.
  - destruct (fold_max_attained (firstn (S n) lines) 0) as [E|E]; [auto|right].
    apply In_nth with (d := 0) in E. destruct E as (m & Hm & E). rewrite firstn_length in Hm.
    exists m. split; [lia|]. rewrite <- E. rewrite <- (firstn_skipn (S n) lines) at 1.
    apply app_nth1. rewrite firstn_length. lia.
Qed.
Print Assumptions C15_line_table.

Theorem C15_monotone : forall lines n m, (n <= m < length lines)%nat ->
  snd (nth n (py_linenos lines) (0, 0)) <= snd (nth m (py_linenos lines) (0, 0)).
Proof.
  intros lines n m H. unfold py_linenos. rewrite !py_linenos_nth by lia. simpl snd.
  apply (fold_max_firstn lines (S n) (S m)). lia.
Qed.
Print Assumptions C15_monotone.

Example C15_example : py_linenos [0; 0; 5; 3; 9; 0] = [(1, 0); (2, 0); (3, 5); (4, 5); (5, 9); (6, 9)].
Proof. reflexivity. Qed.
