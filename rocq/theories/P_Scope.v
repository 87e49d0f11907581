(** * Names and expressions of a running template: proofs *)

From Coq Require Import Ascii String List NArith ZArith Bool Lia Arith.
From Verif Require Import PyStr PyStrLemmas M_Values M_IR M_Template P_Template M_Run S_Scope.
Import ListNotations.
Open Scope list_scope.

Section Scope.
Variable code : Type.
Variable py : python.
Notation gval := (gval (fobj code) (str * code)).
Notation sees := (sees code py).
Notation reads_name := (reads_name code py).
Notation passes := (passes code py).
Notation pass_all := (pass_all code py).
Notation evaluates := (evaluates code py).
Notation looks := (looks code).
Notation calls := (calls code py).

(** ** Names *)
Lemma variable_dec : forall (w : world code) f x, has_variable code w f x \/ ~ has_variable code w f x.
Proof.
  intros w f x. unfold has_variable. destruct (nth_error (w_frames w) f) as [fr|]; [|right; intros (fr & E & _); discriminate].
  destruct (smem x (fr_names fr)) eqn:M; [left; exists fr; split; [reflexivity|now apply smem_In]|].
  right. intros (fr' & E & I1). assert (fr' = fr) as -> by congruence. apply smem_In in I1. congruence.
Qed.
Lemma find_skips : forall (w : world code) x inner rest err, inner <> [] -> Forall (fun g => ~ has_variable code w g x) inner ->
  find_name (w_frames w) err (inner ++ rest) x = find_name (w_frames w) "NameError" rest x.
Proof.
  intros w x inner. induction inner as [|f inner IH]; intros rest err Ne F; [congruence|]. apply Forall_cons_iff in F as [H F].
  cbn [app find_name]. assert (E : forall o, find_name (w_frames w) "NameError" (inner ++ rest) x = o -> find_name (w_frames w) "NameError" (inner ++ rest) x = o) by auto.
  assert (R : find_name (w_frames w) "NameError" (inner ++ rest) x = find_name (w_frames w) "NameError" rest x).
  { destruct inner as [|g inner]; [reflexivity|]. apply IH; [discriminate|exact F]. }
  destruct (nth_error (w_frames w) f) as [fr|] eqn:En; [|exact R]. destruct (smem x (fr_names fr)) eqn:M; [|exact R].
  exfalso. apply H. exists fr. split; [exact En|now apply smem_In].
Qed.
Lemma find_here : forall (w : world code) x f rest err v, variable_is code w f x v ->
  find_name (w_frames w) err (f :: rest) x = Some (match v with Some v => Ok v | None => Raise err end).
Proof.
  intros w x f rest err v (fr & E & I1 & G). cbn [find_name]. rewrite E. apply smem_In in I1. rewrite I1, G. reflexivity.
Qed.
Lemma find_none : forall (w : world code) x fs err, Forall (fun g => ~ has_variable code w g x) fs -> find_name (w_frames w) err fs x = None.
Proof.
  intros w x fs err F. destruct fs as [|f fs]; [reflexivity|]. rewrite <- (app_nil_r (f :: fs)), find_skips; [reflexivity|discriminate|exact F].
Qed.
Lemma sees_lookup : forall w p x r, sees w p x r -> lookup py w p x = r.
Proof.
  intros w p x r S. unfold lookup. destruct S as [f fs v E V|f fs E V|inner f fs v E Ne F V|inner f fs E Ne F V|v F G|v F G B|F G B].
  - rewrite E, (find_here _ _ _ _ _ _ V). reflexivity.
  - rewrite E, (find_here _ _ _ _ _ _ V). reflexivity.
  - rewrite E, find_skips, (find_here _ _ _ _ _ _ V) by assumption. reflexivity.
  - rewrite E, find_skips, (find_here _ _ _ _ _ _ V) by assumption. reflexivity.
  - rewrite find_none by assumption. unfold resolve. now rewrite G.
  - rewrite find_none by assumption. unfold resolve. now rewrite G, B.
  - rewrite find_none by assumption. unfold resolve. now rewrite G, B.
Qed.
Lemma sees_total : forall w p x, exists r, sees w p x r.
Proof.
  intros w p x.
  assert (D : Forall (fun g => ~ has_variable code w g x) (p_scopes p) \/
    exists inner f fs, p_scopes p = inner ++ f :: fs /\ Forall (fun g => ~ has_variable code w g x) inner /\ has_variable code w f x).
  { induction (p_scopes p) as [|f fs IH]; [left; constructor|]. destruct (variable_dec w f x) as [H|H].
    - right. exists [], f, fs. split; [reflexivity|]. split; [constructor|exact H].
    - destruct IH as [IH|(inner & g & gs & E & F & V)]; [left; now constructor|right]. exists (f :: inner), g, gs. rewrite E. split; [reflexivity|]. split; [now constructor|exact V]. }
  destruct D as [F|(inner & f & fs & E & F & (fr & En & I1))].
  - destruct (get x (globals _ _ (w_heap w) (p_inst p))) as [v|] eqn:G; [exists (Ok v); now apply se_global|].
    destruct (builtin_value py x) as [v|] eqn:B; [exists (Ok (val v)); now apply se_builtin|exists (Raise "NameError"); now apply se_nothing].
  - assert (V : variable_is code w f x (get x (fr_vars fr))) by (exists fr; auto). destruct inner as [|g inner], (get x (fr_vars fr)) as [v|].
    + exists (Ok v). eapply se_local; eassumption.
    + exists (Raise "UnboundLocalError"). eapply se_unbound; eassumption.
    + exists (Ok v). eapply se_around; [exact E|discriminate|exact F|exact V].
    + exists (Raise "NameError"). eapply se_around_unbound; [exact E|discriminate|exact F|exact V].
Qed.
Theorem lookup_sees : forall w p x r, lookup py w p x = r <-> sees w p x r.
Proof.
  intros w p x r. split; [|apply sees_lookup]. intros E. destruct (sees_total w p x) as [r' S]. rewrite (sees_lookup _ _ _ _ S) in E. congruence.
Qed.

Lemma nth_put : forall (fs : list (frame code)) i x j, i < length fs -> nth_error (put_frame fs i x) j = if j =? i then Some x else nth_error fs j.
Proof.
  induction fs as [|y fs IH]; intros i x j H; [cbn in H; lia|]. destruct i as [|i], j as [|j]; try reflexivity. cbn [put_frame nth_error].
  rewrite IH by (cbn in H; lia). reflexivity.
Qed.
Lemma length_put : forall (fs : list (frame code)) i x, length (put_frame fs i x) = length fs.
Proof. induction fs as [|y fs IH]; intros [|i] x; cbn [put_frame length]; [reflexivity..|now rewrite IH]. Qed.
Theorem set_binds : forall (w : world code) p x v, binds_name code w p x v (set_name w p x v).
Proof.
  intros w p x v. unfold binds_name, set_name, running. destruct (p_scopes p) as [|f fs] eqn:Ep.
  - split; [reflexivity|]. split; [reflexivity|]. intros g fr E. exists fr. split; [exact E|]. split; [reflexivity|]. split; [intros [fs E']; discriminate|reflexivity].
  - destruct (nth_error (w_frames w) f) as [fr0|] eqn:E0.
    + cbn [w_heap w_frames]. split; [reflexivity|]. split; [apply length_put|]. intros g fr E. rewrite nth_put by (apply nth_error_Some; congruence).
      destruct (Nat.eqb_spec g f) as [->|Ne].
      * assert (fr0 = fr) as -> by congruence. eexists. split; [reflexivity|]. split; [reflexivity|]. cbn [fr_vars]. split.
        -- intros _. now rewrite get_set, seqb_refl.
        -- intros y H. rewrite get_set. destruct (seqb_spec y x) as [->|]; [|reflexivity]. exfalso. destruct H as [H|H]; [|congruence]. apply H. now exists fs.
      * exists fr. split; [exact E|]. split; [reflexivity|]. split; [|reflexivity]. intros [fs' E']. congruence.
    + split; [reflexivity|]. split; [reflexivity|]. intros g fr E. exists fr. split; [exact E|]. split; [reflexivity|]. split; [|reflexivity]. intros [fs' E']. congruence.
Qed.

(** ** Values *)
Lemma looks_iff : forall g v, looks g v <-> as_value g = v.
Proof.
  intros g v. split.
  - intros [v' -> |H]; [reflexivity|]. destruct g as [[v'|]| | | | | | | |]; try reflexivity. exfalso. now apply (H v').
  - intros <-. destruct g as [[v'|]| | | | | | | |]; [now apply lo_value|..]; apply lo_other; intros v'; discriminate.
Qed.
Lemma reads_iff : forall w p x r, reads_name w p x r <-> rmap as_value (lookup py w p x) = r.
Proof.
  intros w p x r. split.
  - intros [g v S Lk|e S]; apply lookup_sees in S; rewrite S; [|reflexivity]. apply looks_iff in Lk. now rewrite <- Lk.
  - intros <-. destruct (lookup py w p x) as [g|e] eqn:E; apply lookup_sees in E; cbn [rmap rbind]; [|now apply rn_error].
    eapply rn_value; [exact E|]. now apply looks_iff.
Qed.
Lemma all_reads : forall w p xs rs, Forall2 (reads_name w p) xs rs <-> reads py w p xs = rs.
Proof.
  intros w p xs. unfold reads. induction xs as [|x xs IH]; intros rs; cbn [map].
  - split; [intros F; now inversion F|intros <-; constructor].
  - split; [intros F; inversion F as [|? r ? rs' R F']; subst; apply reads_iff in R; apply IH in F'; now rewrite R, F'|].
    intros <-. constructor; [now apply reads_iff|now apply IH].
Qed.
Lemma ok_map : forall A B (f : A -> B) r b, rmap f r = Ok b <-> exists a, r = Ok a /\ b = f a.
Proof.
  intros A B f [a|e] b; cbn [rmap rbind].
  - split; [intros E; exists a; split; [reflexivity|congruence]|intros (a' & E & ->)]. assert (a' = a) as -> by congruence. reflexivity.
  - split; [discriminate|intros (a & E & _); discriminate].
Qed.
Lemma ok_bind : forall A B (r : result A) (f : A -> result B) b, rbind r f = Ok b <-> exists a, r = Ok a /\ f a = Ok b.
Proof.
  intros A B [a|e] f b; cbn [rbind].
  - split; [now exists a|intros (a' & E & H)]. assert (a' = a) as -> by congruence. exact H.
  - split; [discriminate|intros (a & E & _); discriminate].
Qed.
Lemma passes_iff : forall w p a g, passes w p a g <-> eval_arg py w p a = Ok g.
Proof.
  intros w p a g. destruct a as [x|xs f]; cbn [eval_arg].
  - rewrite lookup_sees. split; [intros H; now inversion H|apply pa_name].
  - rewrite ok_map. split.
    + intros H; inversion H as [|? ? rs v F E]; subst. exists v. split; [|reflexivity]. apply all_reads in F. now rewrite F.
    + intros (v & E & ->). eapply pa_value; [now apply all_reads|exact E].
Qed.
Lemma pass_all_iff : forall w p l gs, pass_all w p l gs <-> eval_args py w p l = Ok gs.
Proof.
  intros w p l. unfold pass_all. induction l as [|[k a] l IH]; intros gs; cbn [eval_args].
  - split; [intros F; now inversion F|intros E; assert (gs = []) as -> by congruence; constructor].
  - rewrite ok_bind. split.
    + intros F. inversion F as [|? [k' g] ? gs' [E P] F']; subst. cbn [fst snd] in *. subst k'. exists g. split; [now apply passes_iff|].
      apply ok_map. exists gs'. split; [now apply IH|reflexivity].
    + intros (g & E & R). apply ok_map in R as (gs' & E' & ->). constructor; [split; [reflexivity|now apply passes_iff]|now apply IH].
Qed.
Lemma look_all_iff : forall (gs : list (option str * gval)) vs, look_all code gs vs <-> values gs = vs.
Proof.
  intros gs. unfold look_all, values. induction gs as [|[k g] gs IH]; intros vs; cbn [map].
  - split; [intros F; now inversion F|intros <-; constructor].
  - split.
    + intros F. inversion F as [|? [k' v] ? vs' [E Lk] F']; subst. cbn [fst snd] in *. apply looks_iff in Lk. apply IH in F'. subst. reflexivity.
    + intros <-. constructor; [split; [reflexivity|now apply looks_iff]|now apply IH].
Qed.
Lemma target_from : forall (w : world code) b fuel f c i, target _ _ b fuel (w_heap w) f = Ok (c, i) ->
  (forall k, b k = option_map (@val code) (builtin_value py k)) -> comes_from code w f (fst c) (snd c) i.
Proof.
  intros w bi fuel f c i E B. revert f E. induction fuel as [|fuel IH]; intros [[[d b]|k] j] E; cbn [target f_code f_inst] in E; try discriminate.
  - assert (c = (d, b)) as -> by congruence. assert (i = j) as -> by congruence. constructor.
  - assert (c = (d, b)) as -> by congruence. assert (i = j) as -> by congruence. constructor.
  - apply ok_bind in E as (v & E1 & E). apply ok_bind in E as (q & E2 & E). apply ok_bind in E as (f & E3 & E). unfold resolve in E1.
    assert (G : get (L "parent") (globals _ _ (w_heap w) j) = Some (GInst _ _ q)).
    { destruct (get (L "parent") (globals _ _ (w_heap w) j)) as [v'|].
      - assert (v' = v) as -> by congruence. destruct v; cbn in E2; try discriminate. congruence.
      - rewrite B in E1. destruct (builtin_value py (L "parent")); [|discriminate]. cbn [option_map] in E1. assert (v = val v0) as -> by congruence. discriminate. }
    unfold getattr in E3. destruct (get k (attrs _ _ (w_heap w) q)) as [f'|] eqn:A; [|discriminate]. assert (f' = f) as -> by congruence.
    eapply cf_inherited; [exact G|exact A|now apply IH].
Qed.
Lemma callable_from : forall (w : world code) t d b i ss, tpl_callable py (w_heap w) t = Ok (d, b, i, ss) -> comes_from code w t d b i /\ ss = [].
Proof.
  intros w t d b i ss E. unfold tpl_callable in E. apply ok_map in E as ([[d' b'] i'] & E & X). cbn [fst snd] in X.
  assert (d' = d) as -> by congruence. assert (b' = b) as -> by congruence. assert (i' = i) as -> by congruence. split; [|congruence].
  exact (target_from _ _ _ _ _ _ E (fun k => eq_refl)).
Qed.
Lemma method_iff : forall (h : heap (fobj code) (str * code)) i k t, method h i k = Ok t <-> get k (attrs _ _ h i) = Some t.
Proof.
  intros h i k t. unfold method, getattr. destruct (get k (attrs _ _ h i)) as [t'|]; [split; congruence|]. destruct (smem k template_attributes); split; discriminate.
Qed.
Lemma find_calls : forall w p c fo, find_callee py w p c = Ok fo -> calls w p c fo.
Proof.
  intros w p c fo E. destruct c as [f|o k]; cbn [find_callee] in E; apply ok_bind in E as (g & S & E); apply lookup_sees in S.
  - destruct g as [[v|d b i ss]|i|t|i|i| | | |]; try discriminate; try (assert (fo = FBuiltin _) as -> by (symmetry; injection E as E; exact E); apply ca_helper; [exact S|]; eauto 6).
    + assert (fo = FObject v) as -> by congruence. now apply ca_object.
    + assert (fo = FTemplate (d, b, i, ss)) as -> by congruence. now apply ca_inner.
    + apply ok_map in E as ([[[d b] i] ss] & E & ->). apply callable_from in E as [E ->]. now apply (ca_function _ _ _ _ _ t).
  - destruct g as [[v|d b i ss]|i|t|i|i| | | |]; try discriminate.
    + assert (fo = FMethod v k) as -> by congruence. now apply ca_method.
    + apply ok_bind in E as (t & M & E). apply method_iff in M. apply ok_map in E as ([[[d b] j] ss] & E & ->). apply callable_from in E as [E ->].
      now apply (ca_template _ _ _ _ _ _ i t).
Qed.
Definition is_template (fo : found code) : Prop := match fo with FTemplate _ => True | _ => False end.
Lemma calls_find : forall w p c fo, calls w p c fo -> ~ is_template fo -> find_callee py w p c = Ok fo.
Proof.
  intros w p c fo C N0. destruct C as [f t d b i S Cf|f d b i ss S|f v S|f g S H|o k i t d b j S A Cf|o k v S]; try (exfalso; apply N0; exact Logic.I);
    apply lookup_sees in S; cbn [find_callee]; rewrite S; cbn [rbind val]; try reflexivity.
  destruct H as [->|[->|[[i ->]|[i ->]]]]; reflexivity.
Qed.
Lemma helps_iff : forall w g vs r, (g = GLiteral _ _ \/ g = GGettext _ _ \/ (exists i, g = GDefined _ _ i) \/ (exists i, g = GValueOf _ _ i)) ->
  (helps code py w g vs r <-> call_builtin py (w_heap w) g vs = Ok r).
Proof.
  intros w g vs r H. split.
  - intros [v|s|i k v G|i k G|i k g' v G Lk|i k G|i k d g' v G Lk|i k d G]; cbn [call_builtin]; try reflexivity; unfold has; rewrite ?G; try reflexivity;
      apply looks_iff in Lk; now rewrite Lk.
  - destruct H as [->|[->|[[i ->]|[i ->]]]]; cbn [call_builtin]; intros E;
      repeat match type of E with context [match ?x with _ => _ end] =>
        lazymatch x with get _ _ => fail | context [get _ _] => fail | _ => destruct x; try discriminate E end end.
    + assert (r = VFlat [v]) as -> by congruence. constructor.
    + match type of E with Ok (gettext py ?s) = _ => assert (r = gettext py s) as -> by congruence end. constructor.
    + unfold has in E. destruct (get _ _) as [g|] eqn:G in E; assert (r = _) as -> by (symmetry; injection E as E; exact E); [eapply hp_defined|eapply hp_undefined]; exact G.
    + destruct (get _ _) as [g|] eqn:G in E; assert (r = _) as -> by (symmetry; injection E as E; exact E); [eapply hp_value; [exact G|now apply looks_iff]|now apply hp_no_value].
    + destruct (get _ _) as [g|] eqn:G in E; assert (r = _) as -> by (symmetry; injection E as E; exact E); [eapply hp_value_or; [exact G|now apply looks_iff]|now apply hp_default].
Qed.
Lemma call_helper : forall w p c g, calls w p c (FBuiltin g) -> (g = GLiteral _ _ \/ g = GGettext _ _ \/ (exists i, g = GDefined _ _ i) \/ (exists i, g = GValueOf _ _ i)).
Proof. intros w p c g C. inversion C; subst; assumption. Qed.
Theorem eval_iff : forall w p e g, eval py w p e = Ok g <-> evaluates w p e g.
Proof.
  intros w p e g. split.
  - intros E. destruct e as [x|o k|xs f|c args]; cbn [eval] in E.
    + apply lookup_sees in E. now apply ev_name.
    + apply ok_bind in E as (v & S & E). apply lookup_sees in S. destruct v as [[v|d b i ss]|i|t|i|i| | | |]; try discriminate; apply ok_map in E as (r & E & ->).
      * eapply ev_attribute; eassumption.
      * apply method_iff in E. eapply ev_function; eassumption.
    + apply ok_map in E as (v & E & ->). eapply ev_value; [now apply all_reads|exact E].
    + apply ok_bind in E as (fo & C & E). apply ok_bind in E as (gs & A & E). apply find_calls in C. apply pass_all_iff in A.
      destruct fo as [f|v|v k|b]; [discriminate|..]; apply ok_map in E as (r & E & ->).
      * eapply ev_object; [exact C|exact A|now apply look_all_iff|exact E].
      * eapply ev_method; [exact C|exact A|now apply look_all_iff|exact E].
      * eapply ev_helper; [exact C|exact A|now apply look_all_iff|]. apply helps_iff; [eapply call_helper; exact C|exact E].
  - intros [x g' S|o k i t S A|o k v r S A|xs f rs v F E|c args v gs vs r C A Lk E|c args v k gs vs r C A Lk E|c args b gs vs r C A Lk E]; cbn [eval].
    + now apply lookup_sees.
    + apply lookup_sees in S. rewrite S. cbn [rbind]. apply method_iff in A. now rewrite A.
    + apply lookup_sees in S. rewrite S. cbn [rbind val]. now rewrite A.
    + apply all_reads in F. now rewrite F, E.
    + apply calls_find in C; [|intros []]. apply pass_all_iff in A. apply look_all_iff in Lk. rewrite C. cbn [rbind]. rewrite A. cbn [rbind]. now rewrite Lk, E.
    + apply calls_find in C; [|intros []]. apply pass_all_iff in A. apply look_all_iff in Lk. rewrite C. cbn [rbind]. rewrite A. cbn [rbind]. now rewrite Lk, E.
    + pose proof (call_helper _ _ _ _ C) as H. apply calls_find in C; [|intros []]. apply pass_all_iff in A. apply look_all_iff in Lk. rewrite C. cbn [rbind]. rewrite A. cbn [rbind].
      apply helps_iff in E; [|exact H]. now rewrite Lk, E.
Qed.
Lemma value_iff : forall w p x v, evalue py w p x = Ok v <-> exists g, evaluates w p (parse py x) g /\ looks g v.
Proof.
  intros w p x v. unfold evalue. rewrite ok_map. split; intros (g & E & H); exists g.
  - split; [now apply eval_iff|now apply looks_iff].
  - split; [now apply eval_iff|symmetry; now apply looks_iff].
Qed.
Lemma rseq_iff : forall A B (f : A -> result B) l bs, rseq (map f l) = Ok bs <-> Forall2 (fun a b => f a = Ok b) l bs.
Proof.
  intros A B f l. induction l as [|a l IH]; intros bs; cbn [map rseq].
  - split; [intros E; assert (bs = []) as -> by congruence; constructor|intros F; now inversion F].
  - rewrite ok_bind. split.
    + intros (b & E & R). apply ok_map in R as (bs' & R & ->). constructor; [exact E|now apply IH].
    + intros F. inversion F as [|? b ? bs' E F']; subst. exists b. split; [exact E|]. apply ok_map. exists bs'. split; [now apply IH|reflexivity].
Qed.
Lemma F2_impl : forall A B (P Q : A -> B -> Prop) l l', (forall a b, P a b -> Q a b) -> Forall2 P l l' -> Forall2 Q l l'.
Proof. intros A B P Q l l' H F. induction F; constructor; auto. Qed.
Lemma F2_iff : forall A B (P Q : A -> B -> Prop) l l', (forall a b, P a b <-> Q a b) -> (Forall2 P l l' <-> Forall2 Q l l').
Proof. intros A B P Q l l' H. split; intros F; (eapply F2_impl; [|exact F]); intros a b X; now apply H. Qed.
Theorem params_iff : forall d (args : list (option str * gval)) ps, bind_args py d args = Ok ps <-> parameters code py d args ps.
Proof.
  intros d args ps. unfold bind_args, parameters. rewrite ok_bind. split; intros (l & E & H); exists l; (split; [exact E|]).
  - apply rseq_iff in H. eapply F2_iff; [|exact H]. intros [x [n|v]] [y g]; cbn [fst snd].
    + split.
      * intros (-> & k & ->). reflexivity.
      * destruct (nth_error args n) as [[k a]|]; [|discriminate]. cbn [snd]. intros X. split; [congruence|]. exists k. congruence.
    + split; [intros (-> & ->); reflexivity|]. intros X. split; congruence.
  - apply rseq_iff. eapply F2_iff; [|exact H]. intros [x [n|v]] [y g]; cbn [fst snd].
    + split.
      * destruct (nth_error args n) as [[k a]|]; [|discriminate]. cbn [snd]. intros X. split; [congruence|]. exists k. congruence.
      * intros (-> & k & ->). reflexivity.
    + split; [intros X; split; congruence|intros (-> & ->); reflexivity].
Qed.
Theorem show_iff : forall state world_of run p x (s : state) v s',
  show_value py world_of run p x s = Ok (v, s') -> is_shown code py state world_of run p x s v s'.
Proof.
  intros state world_of run p x s v s' E. unfold show_value in E.
  assert (V : rmap (fun v => (v, s)) (evalue py (world_of s) p x) = Ok (v, s') -> is_shown code py state world_of run p x s v s').
  { intros H. apply ok_map in H as (v' & H & X). assert (v' = v) as -> by congruence. assert (s' = s) as -> by congruence.
    apply value_iff in H as (g & H & Lk). eapply sh_value; eassumption. }
  destruct (parse py x) as [y|o k|xs f|c args] eqn:P; try (exact (V E)).
  apply ok_bind in E as (fo & C & E). destruct fo as [f|v0|v0 k|b]; try (exact (V E)).
  apply ok_bind in E as (gs & A & E). unfold call_function in E. apply ok_bind in E as (ps & B & E). apply ok_map in E as ([o s1] & E & X). cbn [fst snd] in X.
  assert (v = VFlat o) as -> by congruence. assert (s1 = s') as -> by congruence.
  eapply sh_call; [exact P|apply find_calls; exact C|apply pass_all_iff; exact A|apply params_iff; exact B|exact E].
Qed.
Theorem rounds_iff : forall w p d rs, rounds py w p d = Ok rs <-> loops code py w p d rs.
Proof.
  intros w p d rs. unfold rounds, loops. destruct (parse_for py d) as [xs e]. cbn [fst snd]. rewrite ok_bind. split.
  - intros (g & E & R). apply ok_bind in R as (vs & I1 & R). exists g, (as_value g), vs. split; [now apply eval_iff|]. split; [now apply looks_iff|]. split; [exact I1|].
    apply rseq_iff in R. eapply F2_impl; [|exact R]. intros v r H. destruct xs as [|x [|x2 xs]].
    + apply ok_bind in H as (us & U & H). destruct (Nat.eqb_spec (length us) (length (@nil str))); [|discriminate].
      assert (r = combine [] (map val us)) as -> by congruence. now apply rd_many.
    + assert (r = [(x, val v)]) as -> by congruence. now apply rd_one.
    + apply ok_bind in H as (us & U & H). destruct (Nat.eqb_spec (length us) (length (x :: x2 :: xs))) as [El|]; [|discriminate].
      assert (r = combine (x :: x2 :: xs) (map val us)) as -> by congruence. now apply rd_many.
  - intros (g & v & vs & E & Lk & I1 & F). exists g. split; [now apply eval_iff|]. apply looks_iff in Lk. rewrite Lk. apply ok_bind. exists vs. split; [exact I1|].
    apply rseq_iff. eapply F2_impl; [|exact F]. intros u r [x ->|us Ne U El]; [reflexivity|].
    destruct xs as [|x [|x2 xs]]; [|exfalso; now apply Ne|]; rewrite U; cbn [rbind]; rewrite El, Nat.eqb_refl; reflexivity.
Qed.
Theorem attributes_iff : forall w p x l, attributes py w p x = Ok l <-> exists g v, evaluates w p (parse py x) g /\ looks g v /\ attrs_of py v = Ok l.
Proof.
  intros w p x l. unfold attributes. rewrite ok_bind. split.
  - intros (v & E & A). apply value_iff in E as (g & E & Lk). eauto.
  - intros (g & v & E & Lk & A). exists v. split; [apply value_iff; eauto|exact A].
Qed.

(** ** Embedded Python *)
Lemma bind_some_binds : forall p xs vs (w : world code), binds_all code p xs vs w (bind_some w p xs vs).
Proof.
  intros p xs. induction xs as [|x xs IH]; intros vs w; [apply ba_over|]. destruct vs as [|[v|] vs]; [apply ba_none| |].
  - cbn [bind_some]. eapply ba_bind; [apply set_binds|apply IH].
  - cbn [bind_some]. apply ba_skip. apply IH.
Qed.
Theorem block_performs : forall p l w o w', run_block py w p l = Ok (o, w') -> performs code py p l w o w'.
Proof.
  intros p l. induction l as [|[x e|xs ys f] l IH]; intros w o w' E; cbn [run_block] in E.
  - assert (o = []) as -> by congruence. assert (w' = w) as -> by congruence. constructor.
  - apply ok_bind in E as (g & E & R). eapply pf_set; [apply eval_iff; exact E|apply set_binds|apply IH; exact R].
  - apply ok_bind in E as ([o1 vs] & E & R). apply ok_map in R as ([o2 w2] & R & X). cbn [fst snd] in *. assert (o = o1 ++ o2) as -> by congruence. assert (w2 = w') as -> by congruence.
    eapply pf_run; [apply all_reads; reflexivity|exact E|apply bind_some_binds|apply IH; exact R].
Qed.

(** ** Translation, other templates *)
Lemma instance_iff : forall w p x i, instance py w p x = Ok i <-> sees w p x (Ok (GInst _ _ i)).
Proof.
  intros w p x i. unfold instance. rewrite ok_bind. split.
  - intros (g & S & E). destruct g; cbn in E; try discriminate. assert (i0 = i) as -> by congruence. now apply lookup_sees.
  - intros S. apply lookup_sees in S. eexists. split; [exact S|reflexivity].
Qed.
Theorem translate_iff : forall w p t v, translate py w p t = Ok v <-> translates code py w p t v.
Proof.
  intros w p t v. unfold translate. rewrite ok_bind. split.
  - intros (i & S & E). apply instance_iff in S. destruct (get (L "gettext") (globals _ _ (w_heap w) i)) as [[[f|]| | | | | | | |]|] eqn:G; try discriminate.
    + eapply tr_given; eassumption.
    + assert (v = gettext py t) as -> by congruence. eapply tr_default; eassumption.
  - intros [i S G|i f v' S G C]; exists i; (split; [now apply instance_iff|]); rewrite G; [reflexivity|exact C].
Qed.
Variable load : bool -> str -> result (cls (fobj code) (str * code)).
Theorem import_iff : forall w p name alias w' i, import_template py load w p name alias = Ok (w', i) <-> imports code py load w p name alias w' i.
Proof.
  intros w p name alias w' i. unfold import_template, imports. rewrite ok_bind. split.
  - intros (l & S1 & E). apply ok_bind in E as (s & S2 & E). apply ok_map in E as (c & Lc & X). exists c, l, s. apply instance_iff in S1. apply instance_iff in S2.
    destruct (import_ _ _ (w_heap w) name alias c s) as [h r]. assert (w' = World h (w_frames w)) as -> by congruence. assert (i = r) as -> by congruence. auto.
  - intros (c & l & s & Lc & S1 & S2 & Ef & E). exists l. split; [now apply instance_iff|]. apply ok_bind. exists s. split; [now apply instance_iff|].
    apply ok_map. exists c. split; [exact Lc|]. rewrite <- E, <- Ef. now destruct w'.
Qed.
Theorem extend_iff : forall w p name w' i, extend_template py load w p name = Ok (w', i) <-> extends code py load w p name w' i.
Proof.
  intros w p name w' i. unfold extend_template, extends. rewrite ok_bind. split.
  - intros (l & S1 & E). apply ok_bind in E as (c & Lc & E). apply ok_map in E as ([h r] & E & X). exists c, l. apply instance_iff in S1. cbn [fst snd] in X.
    assert (w' = World h (w_frames w)) as -> by congruence. assert (i = r) as -> by congruence. auto.
  - intros (c & l & Lc & S1 & Ef & E). exists l. split; [now apply instance_iff|]. apply ok_bind. exists c. split; [exact Lc|]. apply ok_map. eexists. split; [exact E|].
    cbn [fst snd]. rewrite <- Ef. now destruct w'.
Qed.
Theorem main_from : forall (w : world code) i d b j ss, main_of py (w_heap w) i = Ok (d, b, j, ss) ->
  exists t, get (L "__main__") (attrs _ _ (w_heap w) i) = Some t /\ comes_from code w t d b j /\ ss = [].
Proof.
  intros w i d b j ss E. unfold main_of in E. apply ok_bind in E as (t & G & E). unfold getattr in G. destruct (get (L "__main__") (attrs _ _ (w_heap w) i)) as [t'|]; [|discriminate].
  assert (t' = t) as -> by congruence. exists t. split; [reflexivity|]. now apply callable_from.
Qed.
End Scope.
