(** * Which exception an expression raises: proofs *)

From Coq Require Import Ascii String List NArith ZArith Bool Lia Arith.
From Verif Require Import PyStr PyStrLemmas M_Values M_IR M_Template P_Template M_Run S_Scope P_Scope S_Fails.
Import ListNotations.
Open Scope list_scope.

Section Fails.
Variable code : Type.
Variable py : python.
Notation gval := (gval (fobj code) (str * code)).
Notation sees := (sees code py).
Notation calls := (calls code py).
Notation uncallable := (uncallable code py).
Notation fails := (fails code py).
Notation builtins := (fun k => option_map (@val code) (builtin_value py k)).

Lemma err_map : forall A B (f : A -> B) r e, rmap f r = Raise e <-> r = Raise e.
Proof. intros A B f [a|x] e; cbn [rmap rbind]; split; congruence. Qed.
Lemma err_bind : forall A B (r : result A) (f : A -> result B) e, rbind r f = Raise e <-> r = Raise e \/ exists a, r = Ok a /\ f a = Raise e.
Proof.
  intros A B [a|x] f e; cbn [rbind].
  - split; [intros E; right; now exists a|intros [E|(a' & E & H)]; [discriminate|]]. assert (a' = a) as -> by congruence. exact H.
  - split; [intros E; left; congruence|intros [E|(a & E & _)]; [congruence|discriminate]].
Qed.

(** ** Inherited functions *)
Lemma parent_iff : forall w i g, parent_of code py w i g <-> resolve _ _ builtins (w_heap w) i (L "parent") = Ok g.
Proof.
  intros w i g. unfold resolve. split.
  - intros [g' G|v G B]; rewrite G; [reflexivity|]. now rewrite B.
  - destruct (get (L "parent") (globals _ _ (w_heap w) i)) as [g'|] eqn:G.
    + intros E. assert (g' = g) as -> by congruence. now apply po_global.
    + destruct (builtin_value py (L "parent")) as [v|] eqn:B; cbn [option_map]; [|discriminate]. intros E. assert (g = val v) as -> by congruence. now apply po_builtin.
Qed.
Lemma parent_error : forall w i e, resolve _ _ builtins (w_heap w) i (L "parent") = Raise e <-> (forall g, ~ parent_of code py w i g) /\ e = "NameError"%string.
Proof.
  intros w i e. split.
  - intros E. split.
    + intros g H. apply parent_iff in H. congruence.
    + unfold resolve in E. destruct (get _ _); [discriminate|]. destruct (option_map _ _); [discriminate|congruence].
  - intros [H ->]. destruct (resolve _ _ builtins (w_heap w) i (L "parent")) as [g|x] eqn:E; [exfalso; apply (H g); now apply parent_iff|].
    unfold resolve in E. destruct (get _ _); [discriminate|]. destruct (option_map _ _); [discriminate|congruence].
Qed.
Lemma instance_error : forall (h : heap (fobj code) (str * code)) g e, as_instance _ _ h g = Raise e <-> no_template code g /\ e = "AttributeError"%string.
Proof.
  intros h g e. unfold no_template. destruct g; cbn [as_instance]; split; try (intros [H ->]); try (intros E; split; [intros j; discriminate|congruence]); try reflexivity; try discriminate.
  exfalso. now apply (H i).
Qed.
Lemma parent_inst : forall w i q, parent_of code py w i (GInst _ _ q) <-> get (L "parent") (globals _ _ (w_heap w) i) = Some (GInst _ _ q).
Proof. intros w i q. split; [intros H; now inversion H|apply po_global]. Qed.
(** What is left of the limit after some steps. *)
Definition lost_within (w : world code) (fuel : nat) (t : tplfun (str * code)) (e : string) : Prop :=
  (exists n k i, leads_to code w n t (TplFunc _ (Trampoline _ k) i) /\ n < fuel /\ no_function code py w k i e) \/
  (exists k i, leads_to code w fuel t (TplFunc _ (Trampoline _ k) i) /\ e = "RecursionError"%string).
Lemma target_error : forall w fuel t e, target _ _ builtins fuel (w_heap w) t = Raise e <-> lost_within w fuel t e.
Proof.
  intros w fuel. induction fuel as [|fuel IH]; intros [[c|k] i] e; cbn [target f_code f_inst].
  - split; [discriminate|]. intros [(n & k & j & _ & H & _)|(k & j & H & _)]; [lia|]. inversion H.
  - split.
    + intros E. right. exists k, i. split; [constructor|congruence].
    + intros [(n & k' & j & _ & H & _)|(k' & j & H & ->)]; [lia|reflexivity].
  - split; [discriminate|]. intros [(n & k & j & H & _)|(k & j & H & _)]; inversion H.
  - rewrite err_bind. split.
    + intros [E|(g & E & R)].
      * apply parent_error in E as [H ->]. left. exists 0, k, i. split; [constructor|]. split; [lia|]. now apply nf_no_parent.
      * apply parent_iff in E. apply err_bind in R as [R|(q & I1 & R)].
        -- apply instance_error in R as [H ->]. left. exists 0, k, i. split; [constructor|]. split; [lia|]. now apply (nf_not_template _ _ _ _ _ g).
        -- destruct g; try discriminate I1. assert (i0 = q) as -> by (cbn in I1; congruence). pose proof E as P0. apply parent_inst in E. unfold getattr in R.
           destruct (get k (attrs _ _ (w_heap w) q)) as [f|] eqn:F; cbn [rbind] in R.
           ++ apply IH in R. destruct R as [(n & k' & j & H & Ln & Nf)|(k' & j & H & ->)].
              ** left. exists (S n), k', j. split; [eapply lt_parent; eassumption|]. split; [lia|exact Nf].
              ** right. exists k', j. split; [eapply lt_parent; eassumption|reflexivity].
           ++ left. exists 0, k, i. split; [constructor|]. split; [lia|]. assert (e = "AttributeError"%string) as -> by congruence. now apply (nf_missing _ _ _ _ _ q).
    + assert (Deep : forall n k' j, leads_to code w (S n) (TplFunc _ (Trampoline _ k) i) (TplFunc _ (Trampoline _ k') j) ->
        exists q f, get (L "parent") (globals _ _ (w_heap w) i) = Some (GInst _ _ q) /\ get k (attrs _ _ (w_heap w) q) = Some f /\ leads_to code w n f (TplFunc _ (Trampoline _ k') j)).
      { intros n k' j H. inversion H; subst. eauto. }
      assert (Step : forall q f, get (L "parent") (globals _ _ (w_heap w) i) = Some (GInst _ _ q) -> get k (attrs _ _ (w_heap w) q) = Some f -> lost_within w fuel f e ->
        resolve _ _ builtins (w_heap w) i (L "parent") = Raise e \/
        exists a, resolve _ _ builtins (w_heap w) i (L "parent") = Ok a /\ rbind (as_instance _ _ (w_heap w) a) (fun p => rbind (getattr _ _ (w_heap w) p k) (target _ _ builtins fuel (w_heap w))) = Raise e).
      { intros q f G F H. right. exists (GInst _ _ q). split; [now apply parent_iff, parent_inst|]. cbn [as_instance rbind]. unfold getattr. rewrite F. cbn [rbind]. now apply IH. }
      intros [([|n] & k' & j & H & Ln & Nf)|(k' & j & H & ->)].
      * inversion H; subst. destruct Nf as [Np|g Pg Nt|q Pq Fq].
        -- left. now apply parent_error.
        -- right. exists g. split; [now apply parent_iff|]. apply err_bind. left. now apply instance_error.
        -- right. exists (GInst _ _ q). split; [now apply parent_iff|]. cbn [as_instance rbind]. unfold getattr. now rewrite Fq.
      * destruct (Deep _ _ _ H) as (q & f & G & F & H'). apply (Step q f G F). left. exists n, k', j. split; [exact H'|]. split; [lia|exact Nf].
      * destruct (Deep _ _ _ H) as (q & f & G & F & H'). apply (Step q f G F). right. exists k', j. now split.
Qed.
Lemma lost_iff : forall (w : world code) t e, tpl_callable py (w_heap w) t = Raise e <-> lost code py w t e.
Proof.
  intros w t e. unfold tpl_callable. rewrite err_map, target_error. split.
  - intros [(n & k & i & H & Ln & Nf)|(k & i & H & ->)]; [eapply ls_ends; [exact H|lia|exact Nf]|eapply ls_too_long; exact H].
  - intros [n k i e' H Ln Nf|k i H]; [left; exists n, k, i; split; [exact H|split; [lia|exact Nf]]|right; exists k, i; now split].
Qed.
Lemma method_error : forall (w : world code) i k e, method (w_heap w) i k = Raise e <-> function_of code w i k e.
Proof.
  intros w i k e. unfold method, function_of, getattr. destruct (get k (attrs _ _ (w_heap w) i)) as [t|]; [split; [discriminate|intros [H _]; discriminate]|].
  destruct (smem k template_attributes); (split; [intros E; split; [reflexivity|congruence]|intros [_ ->]; reflexivity]).
Qed.
Ltac seen S := apply lookup_sees in S.
Lemma uncallable_iff : forall w p c e, find_callee py w p c = Raise e <-> uncallable w p c e.
Proof.
  intros w p c e. destruct c as [f|o k]; cbn [find_callee]; rewrite err_bind; split.
  - intros [S|(g & S & E)]; seen S; [now apply un_name|].
    destruct g as [[v|d b i ss]|i|t|i|i| | | |]; try discriminate E; try (assert (e = "TypeError"%string) as -> by congruence; eapply un_other; [exact S|]; eauto).
    apply err_map, lost_iff in E. eapply un_lost; eassumption.
  - intros H. inversion H as [? ? S|? t ? S Lt|? g S K| | | |]; subst; seen S; [now left|..]; right; eexists; (split; [exact S|]).
    + cbn. apply err_map. now apply lost_iff.
    + destruct K as [[i ->]|[->| ->]]; reflexivity.
  - intros [S|(g & S & E)]; seen S; [now apply un_object|].
    destruct g as [[v|d b i ss]|i|t|i|i| | | |]; try discriminate E;
      try (assert (e = "AttributeError"%string) as -> by congruence; eapply un_no_attr; [exact S|intros j; discriminate|intros v; discriminate]).
    apply err_bind in E as [E|(t & M & E)].
    + apply method_error in E. eapply un_missing; eassumption.
    + apply err_map, lost_iff in E. apply method_iff in M. eapply un_lost_attr; eassumption.
  - intros H. inversion H as [| | |? ? ? S|? ? i ? S F|? ? i t ? S F Lt|? ? g S N1 N2]; subst; seen S; [now left|..]; right; eexists; (split; [exact S|]).
    + apply err_bind. left. now apply method_error.
    + apply err_bind. right. exists t. split; [now apply method_iff|]. apply err_map. now apply lost_iff.
    + destruct g as [[v|d b i ss]|i|t|i|i| | | |]; try reflexivity; [exfalso; now apply (N2 v)|exfalso; now apply (N1 i)].
Qed.
Lemma from_unique : forall (w : world code) t d b i d' b' i', comes_from code w t d b i -> comes_from code w t d' b' i' -> (d, b, i) = (d', b', i').
Proof.
  intros w t d b i d' b' i' H. revert d' b' i'. induction H as [d b i|k i q f d b j G F H IH]; intros d' b' i' K; inversion K as [|? ? q' f' ? ? ? G' F' K']; subst; [reflexivity|].
  assert (q' = q) as -> by congruence. assert (f' = f) as -> by congruence. now apply IH.
Qed.
Lemma sees_unique : forall w p x r r', sees w p x r -> sees w p x r' -> r = r'.
Proof. intros w p x r r' H K. apply lookup_sees in H. apply lookup_sees in K. congruence. Qed.
Lemma calls_unique : forall w p c f f', calls w p c f -> calls w p c f' -> f = f'.
Proof.
  assert (Help : forall (g : gval), g = GLiteral _ _ \/ g = GGettext _ _ \/ (exists i, g = GDefined _ _ i) \/ (exists i, g = GValueOf _ _ i) ->
    (forall t, Ok g <> Ok (GFun _ _ t)) /\ forall o, Ok g <> Ok (GObj _ _ o)).
  { intros g [->|[->|[[i ->]|[i ->]]]]; split; discriminate. }
  intros w p c f f' H K. destruct H as [f0 t d b i S Cf|f0 d b i ss S|f0 v S|f0 g S G|o k i t d b j S A Cf|o k v S];
    inversion K as [? t' ? ? ? S' Cf'|? ? ? ? ? S'|? ? S'|? ? S' G'|? ? i' t' ? ? ? S' A' Cf'|? ? ? S']; subst; pose proof (sees_unique _ _ _ _ _ S S') as E;
    try discriminate E; try (now apply Help in E); try (symmetry in E; now apply Help in E); try congruence.
  - assert (t' = t) as -> by congruence. pose proof (from_unique _ _ _ _ _ _ _ _ Cf Cf'). congruence.
  - unfold val in E. congruence.
  - assert (i' = i) as -> by congruence. assert (t' = t) as -> by congruence. pose proof (from_unique _ _ _ _ _ _ _ _ Cf Cf'). congruence.
  - unfold val in E. congruence.
Qed.
(** What is found is what is called. *)
Lemma found : forall w p c f, calls w p c f -> (forall e, ~ uncallable w p c e) -> find_callee py w p c = Ok f.
Proof.
  intros w p c f C N. destruct (find_callee py w p c) as [f'|e] eqn:E; [|exfalso; apply (N e); now apply uncallable_iff]. apply find_calls in E. now rewrite (calls_unique _ _ _ _ _ C E).
Qed.

(** ** Arguments and expressions *)
Lemma argument_iff : forall w p a e, eval_arg py w p a = Raise e <-> argument_fails code py w p a e.
Proof.
  intros w p a e. destruct a as [x|xs f]; cbn [eval_arg].
  - rewrite lookup_sees. split; [apply af_name|intros H; now inversion H].
  - rewrite err_map. split.
    + intros E. eapply af_value; [now apply all_reads|exact E].
    + intros H. inversion H as [|? ? rs ? F E]; subst. apply all_reads in F. now rewrite F.
Qed.
Lemma arguments_iff : forall w p l e, eval_args py w p l = Raise e <-> arguments_fail code py w p l e.
Proof.
  intros w p l e. induction l as [|[k a] l IH]; cbn [eval_args].
  - split; [discriminate|]. intros (before & k & a & after & gs & E & _). destruct before; discriminate.
  - rewrite err_bind. split.
    + intros [E|(g & E & R)].
      * exists [], k, a, l, []. split; [reflexivity|]. split; [constructor|now apply argument_iff].
      * apply err_map, IH in R. destruct R as (before & k' & a' & after & gs & -> & P & F). exists ((k, a) :: before), k', a', after, ((k, g) :: gs). split; [reflexivity|]. split; [|exact F].
        constructor; [split; [reflexivity|now apply passes_iff]|exact P].
    + intros ([|[k0 a0] before] & k' & a' & after & gs & E & P & F).
      * assert (a' = a) as -> by (cbn [app] in E; congruence). left. now apply argument_iff.
      * cbn [app] in E. assert (a0 = a) as -> by congruence. assert (l = before ++ (k', a') :: after) by congruence. right.
        inversion P as [|? [k1 g] ? gs' [E1 P1] P2]; subst. cbn [fst snd] in *. exists g. split; [now apply passes_iff|]. apply err_map, IH. exists before, k', a', after, gs'. auto.
Qed.
Lemma no_help : forall w g vs, (g = GLiteral _ _ \/ g = GGettext _ _ \/ (exists i, g = GDefined _ _ i) \/ (exists i, g = GValueOf _ _ i)) ->
  forall e, call_builtin py (w_heap w) g vs = Raise e <-> (forall r, ~ helps code py w g vs r) /\ e = "TypeError"%string.
Proof.
  intros w g vs H e. split.
  - intros E. split; [intros r K; apply helps_iff in K; [congruence|exact H]|].
    destruct H as [->|[->|[[i ->]|[i ->]]]]; cbn [call_builtin] in E;
      repeat match type of E with context [match ?x with _ => _ end] => lazymatch x with get _ _ => fail | context [get _ _] => fail | _ => destruct x; try discriminate E end end; congruence.
  - intros [K ->]. destruct (call_builtin py (w_heap w) g vs) as [r|x] eqn:E; [exfalso; apply (K r); now apply helps_iff|].
    destruct H as [->|[->|[[i ->]|[i ->]]]]; cbn [call_builtin] in E;
      repeat match type of E with context [match ?x with _ => _ end] => lazymatch x with get _ _ => fail | context [get _ _] => fail | _ => destruct x; try discriminate E end end; congruence.
Qed.
Theorem fails_iff : forall w p x e, eval py w p x = Raise e <-> fails w p x e.
Proof.
  intros w p x e. split.
  - intros E. destruct x as [x|o k|xs f|c args]; cbn [eval] in E.
    + seen E. now apply fl_name.
    + apply err_bind in E as [S|(g & S & E)]; seen S; [now apply fl_object|].
      destruct g as [[v|d b i ss]|i|t|i|i| | | |];
        try (assert (e = "AttributeError"%string) as -> by congruence; eapply fl_no_attr; [exact S|intros j; discriminate|intros v; discriminate]); apply err_map in E.
      * eapply fl_attribute; eassumption.
      * apply method_error in E. eapply fl_missing; eassumption.
    + apply err_map in E. eapply fl_value; [now apply all_reads|exact E].
    + apply err_bind in E as [E|(fo & C & E)]; [apply uncallable_iff in E; now apply fl_uncallable|].
      assert (N : forall e, ~ uncallable w p c e) by (intros e' U; apply uncallable_iff in U; congruence). apply find_calls in C.
      apply err_bind in E as [E|(gs & A & E)]; [apply arguments_iff in E; now apply fl_argument|]. apply pass_all_iff in A.
      destruct fo as [f|v|v k|b].
      * assert (e = "not modelled"%string) as -> by congruence. eapply fl_function; eassumption.
      * apply err_map in E. eapply fl_called; [exact C|exact A|now apply look_all_iff|exact E].
      * apply err_map in E. eapply fl_method; [exact C|exact A|now apply look_all_iff|exact E].
      * apply err_map, no_help in E; [|eapply call_helper; exact C]. destruct E as [H ->]. eapply fl_helper; [exact C|exact A|now apply look_all_iff|exact H].
  - intros [x' e' S|xs f rs e' F E|o k e' S|o k i e' S F|o k v e' S A|o k g S N1 N2|c args e' U|c args e' N A|c args f gs C N A|c args v gs vs e' C A Lk E|c args v k gs vs e' C A Lk E|c args g gs vs C A Lk H]; cbn [eval].
    + now apply lookup_sees.
    + apply all_reads in F. now rewrite F, E.
    + seen S. now rewrite S.
    + seen S. rewrite S. cbn [rbind]. apply err_map. now apply method_error.
    + seen S. rewrite S. cbn [rbind val]. now rewrite A.
    + seen S. rewrite S. cbn [rbind]. destruct g as [[v|d b i ss]|i|t|i|i| | | |]; try reflexivity; [exfalso; now apply (N2 v)|exfalso; now apply (N1 i)].
    + apply uncallable_iff in U. now rewrite U.
    + destruct (find_callee py w p c) as [fo|x0] eqn:C; [|exfalso; apply (N x0); now apply uncallable_iff]. cbn [rbind]. apply arguments_iff in A. now rewrite A.
    + rewrite (found _ _ _ _ C N). cbn [rbind]. apply pass_all_iff in A. now rewrite A.
    + apply calls_find in C; [|intros []]. apply pass_all_iff in A. apply look_all_iff in Lk. rewrite C. cbn [rbind]. rewrite A. cbn [rbind]. now rewrite Lk, E.
    + apply calls_find in C; [|intros []]. apply pass_all_iff in A. apply look_all_iff in Lk. rewrite C. cbn [rbind]. rewrite A. cbn [rbind]. now rewrite Lk, E.
    + pose proof (call_helper _ _ _ _ _ _ C) as G. apply calls_find in C; [|intros []]. apply pass_all_iff in A. apply look_all_iff in Lk. rewrite C. cbn [rbind]. rewrite A. cbn [rbind]. rewrite Lk.
      apply err_map. apply no_help; [exact G|]. now split.
Qed.
Lemma value_fails : forall w p x e, evalue py w p x = Raise e <-> fails w p (parse py x) e.
Proof. intros w p x e. unfold evalue. now rewrite err_map, fails_iff. Qed.
Lemma rseq_fails : forall A B (f : A -> result B) l e, rseq (map f l) = Raise e <-> exists before a after bs, l = before ++ a :: after /\ Forall2 (fun a b => f a = Ok b) before bs /\ f a = Raise e.
Proof.
  intros A B f l e. induction l as [|a l IH]; cbn [map rseq].
  - split; [discriminate|]. intros (before & a & after & bs & E & _). destruct before; discriminate.
  - rewrite err_bind. split.
    + intros [E|(b & E & R)]; [exists [], a, l, []; repeat split; auto; constructor|].
      apply err_map, IH in R. destruct R as (before & a' & after & bs & -> & F & E'). exists (a :: before), a', after, (b :: bs). split; [reflexivity|]. split; [now constructor|exact E'].
    + intros ([|a0 before] & a' & after & bs & E & F & E').
      * cbn [app] in E. assert (a' = a) as -> by congruence. now left.
      * cbn [app] in E. assert (a0 = a) as -> by congruence. inversion F as [|? b ? bs' E1 F1]; subst. right. exists b. split; [exact E1|]. apply err_map, IH. exists before, a', after, bs'. split; [congruence|auto].
Qed.
Theorem accepted_iff : forall d (args : list (option str * gval)) e, bind_args py d args = Raise e <-> not_accepted code py d args e.
Proof.
  intros d args e. unfold bind_args. rewrite err_bind. split.
  - intros [E|(l & E & R)]; [now apply na_refused|]. apply rseq_fails in R as (before & [x [n|v]] & after & bs & -> & F & R); cbn [fst snd] in R; [|discriminate].
    destruct (nth_error args n) eqn:En; [discriminate|]. assert (e = "TypeError"%string) as -> by congruence. eapply na_missing; [exact E|apply in_elt|exact En].
  - intros [e' E|l x n E I1 En]; [now left|]. right. exists l. split; [exact E|]. clear E. induction l as [|[y [m|v]] l IH]; [destruct I1|..]; cbn [map rseq fst snd].
    + destruct (nth_error args m) as [a|] eqn:Em; [|reflexivity]. cbn [rbind]. destruct I1 as [I1|I1]; [exfalso; assert (m = n) by congruence; congruence|]. now rewrite (IH I1).
    + destruct I1 as [I1|I1]; [discriminate I1|]. cbn [rbind]. now rewrite (IH I1).
Qed.
Theorem show_fails : forall state world_of run p x (s : state) e,
  show_value py world_of run p x s = Raise e <-> not_shown code py state world_of run p x s e.
Proof.
  intros state world_of run p x s e. split.
  - intros E. unfold show_value in E.
    assert (V : (forall c args f, parse py x = ECall c args -> calls (world_of s) p c (FTemplate f) -> exists e, uncallable (world_of s) p c e) ->
      rmap (fun v => (v, s)) (evalue py (world_of s) p x) = Raise e -> not_shown code py state world_of run p x s e).
    { intros H K. apply err_map, value_fails in K. now apply ns_value. }
    destruct (parse py x) as [y|o k|xs f|c args] eqn:P; try (apply V; [intros c0 args0 f0 X; discriminate X|exact E]).
    apply err_bind in E as [E|(fo & C & E)].
    + apply ns_value; [rewrite P; apply fl_uncallable; now apply uncallable_iff|]. intros c0 args0 f0 X _. assert (c0 = c) as -> by congruence. exists e. now apply uncallable_iff.
    + assert (N : forall e, ~ uncallable (world_of s) p c e) by (intros e' U; apply uncallable_iff in U; congruence). pose proof (find_calls _ _ _ _ _ _ C) as C'.
      assert (V' : (forall f, fo <> FTemplate f) -> rmap (fun v => (v, s)) (evalue py (world_of s) p x) = Raise e -> not_shown code py state world_of run p x s e).
      { intros H. apply V. intros c0 args0 f0 X Y. assert (c0 = c) as -> by congruence. exfalso. apply (H f0). exact (calls_unique _ _ _ _ _ C' Y). }
      destruct fo as [f|v|v k|b]; try (apply V'; [discriminate|exact E]).
      apply err_bind in E as [E|(gs & A & E)]; [apply arguments_iff in E; eapply ns_argument; eassumption|]. apply pass_all_iff in A. unfold call_function in E.
      apply err_bind in E as [E|(ps & B & E)]; [apply accepted_iff in E; eapply ns_parameters; eassumption|]. apply params_iff in B. apply err_map in E. eapply ns_body; eassumption.
  - intros H. destruct H as [c args f e P C N A|c args f gs e P C N A B|c args f gs params e P C N A B R|e F H]; unfold show_value.
    + rewrite P, (found _ _ _ _ C N). cbn [rbind]. apply arguments_iff in A. now rewrite A.
    + rewrite P, (found _ _ _ _ C N). cbn [rbind]. apply pass_all_iff in A. rewrite A. cbn [rbind]. unfold call_function. apply accepted_iff in B. now rewrite B.
    + rewrite P, (found _ _ _ _ C N). cbn [rbind]. apply pass_all_iff in A. rewrite A. cbn [rbind]. unfold call_function. apply params_iff in B. rewrite B. cbn [rbind]. now rewrite R.
    + assert (V : rmap (fun v => (v, s)) (evalue py (world_of s) p x) = Raise e) by now apply err_map, value_fails.
      destruct (parse py x) as [y|o k|xs f|c args] eqn:P; try exact V. destruct (find_callee py (world_of s) p c) as [fo|e'] eqn:C.
      * cbn [rbind]. destruct fo as [f|v|v k|b]; try exact V. exfalso. destruct (H c args f eq_refl (find_calls _ _ _ _ _ _ C)) as [e' U]. apply uncallable_iff in U. congruence.
      * cbn [rbind]. apply value_fails in V || idtac. unfold evalue in V. rewrite P in V. cbn [eval] in V. rewrite C in V. cbn [rbind rmap] in V. congruence.
Qed.
Theorem loop_iff : forall w p d e, rounds py w p d = Raise e <-> loop_fails code py w p d e.
Proof.
  intros w p d e. unfold rounds. split.
  - intros E. destruct (parse_for py d) as [xs x] eqn:P. apply err_bind in E as [E|(g & E & R)]; [apply lf_value; rewrite P; now apply fails_iff|].
    apply eval_iff in E. apply err_bind in R as [R|(items & I1 & R)]; [eapply lf_iterate; [rewrite P; exact E|now apply looks_iff|exact R]|].
    apply rseq_fails in R as (before & u & after & rs & -> & F & R). eapply lf_round; [rewrite P; exact E|now apply looks_iff|exact I1| |]; rewrite P; cbn [fst].
    + eapply F2_impl; [|exact F]. clear. intros v r H. destruct xs as [|x [|x2 xs]].
      * apply ok_bind in H as (us & U & H). destruct (Nat.eqb_spec (length us) (length (@nil str))); [|discriminate]. assert (r = combine [] (map val us)) as -> by congruence. now apply rd_many.
      * assert (r = [(x, val v)]) as -> by congruence. now apply rd_one.
      * apply ok_bind in H as (us & U & H). destruct (Nat.eqb_spec (length us) (length (x :: x2 :: xs))) as [El|]; [|discriminate].
        assert (r = combine (x :: x2 :: xs) (map val us)) as -> by congruence. now apply rd_many.
    + assert (G : length xs <> 1 -> rbind (unpack py u) (fun vs => if Nat.eqb (length vs) (length xs) then Ok (combine xs (map (@val code) vs)) else Raise "ValueError") = Raise e -> round_fails py xs u e).
      { intros Ne H. apply err_bind in H as [H|(vs & U & H)]; [now apply rf_unpack|]. destruct (Nat.eqb_spec (length vs) (length xs)); [discriminate|].
        assert (e = "ValueError"%string) as -> by congruence. now apply (rf_length _ _ _ vs). }
      destruct xs as [|x0 [|x2 xs]]; [apply G; [discriminate|exact R]|discriminate R|apply G; [cbn; lia|exact R]].
  - intros [e' F|g v e' E Lk I1|g v before u after rs e' E Lk I1 F R]; destruct (parse_for py d) as [xs x]; cbn [fst snd] in *.
    + apply fails_iff in F. now rewrite F.
    + apply eval_iff in E. apply looks_iff in Lk. rewrite E. cbn [rbind]. now rewrite Lk, I1.
    + apply eval_iff in E. apply looks_iff in Lk. rewrite E. cbn [rbind]. rewrite Lk, I1. cbn [rbind]. apply rseq_fails. exists before, u, after, rs. split; [reflexivity|]. split.
      * eapply F2_impl; [|exact F]. intros u0 r [y ->|us Ne U El]; [reflexivity|]. destruct xs as [|y [|x2 xs]]; [|exfalso; now apply Ne|]; rewrite U; cbn [rbind]; rewrite El, Nat.eqb_refl; reflexivity.
      * destruct R as [e' Ne U|us Ne U El]; (destruct xs as [|y [|x2 xs]]; [|exfalso; now apply Ne|]); rewrite U; cbn [rbind]; try reflexivity; apply Nat.eqb_neq in El; rewrite El; reflexivity.
Qed.

(** ** Translation and other templates *)
Lemma not_template_iff : forall w p x e, instance py w p x = Raise e <-> not_template code py w p x e.
Proof.
  intros w p x e. unfold instance. rewrite err_bind. split.
  - intros [S|(g & S & E)]; seen S; [now apply nt_name|]. apply instance_error in E as [N ->]. now apply (nt_other _ _ _ _ _ g).
  - intros [e' S|g S N]; seen S; [now left|right]. exists g. split; [exact S|]. now apply instance_error.
Qed.
Theorem translate_fails : forall w p t e, translate py w p t = Raise e <-> not_translated code py w p t e.
Proof.
  intros w p t e. unfold translate. rewrite err_bind. split.
  - intros [E|(i & S & E)]; [apply nl_local; now apply not_template_iff|]. apply instance_iff in S.
    destruct (get (L "gettext") (globals _ _ (w_heap w) i)) as [g|] eqn:G; [|assert (e = "KeyError"%string) as -> by congruence; eapply nl_missing; eassumption].
    destruct g as [[f|]| | | | | | | |]; try discriminate E; try (assert (e = "not modelled"%string) as -> by congruence; eapply nl_other; [exact S|exact G|discriminate|intros f0; discriminate]).
    eapply nl_called; eassumption.
  - intros [e' E|i S G|i f e' S G E|i g S G N1 N2]; [left; now apply not_template_iff|..]; right; exists i; (split; [now apply instance_iff|]); rewrite G; [reflexivity|exact E|].
    destruct g as [[f|]| | | | | | | |]; try reflexivity; [exfalso; now apply (N2 f)|exfalso; now apply N1].
Qed.
Variable load : bool -> str -> result (cls (fobj code) (str * code)).
Theorem import_fails : forall w p name alias e, import_template py load w p name alias = Raise e <-> not_imported code py load w p name e.
Proof.
  intros w p name alias e. unfold import_template. rewrite err_bind. split.
  - intros [E|(l & S & E)]; [apply ni_local; now apply not_template_iff|]. apply instance_iff in S. apply err_bind in E as [E|(i & S2 & E)]; [eapply ni_self; [exact S|now apply not_template_iff]|].
    apply instance_iff in S2. apply err_map in E. eapply ni_load; eassumption.
  - intros [e' E|l e' S E|l i e' S S2 E]; [left; now apply not_template_iff|..]; right; exists l; (split; [now apply instance_iff|]); apply err_bind.
    + left. now apply not_template_iff.
    + right. exists i. split; [now apply instance_iff|]. now apply err_map.
Qed.
End Fails.
