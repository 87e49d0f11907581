(** * Proofs: rendering one object again *)

From Coq Require Import Ascii String List Arith NArith ZArith Bool Lia.
From Verif Require Import PyStr PyStrLemmas M_Values M_IR M_Template P_Template P_Deep M_Run S_Run P_Run11 P_Shift P_Shift2 M_Process S_Again.
Import ListNotations.
Open Scope list_scope.

Section Again.
Variable h : heap (fobj dcode) (str * dcode).
Variable fs0 : list (frame dcode).
Notation sg := (sg dcode [] fs0).
Notation sd := (mapv sg).
Notation sw := (sw dcode [] fs0).
Notation sp := (sp dcode [] fs0).
Notation scall := (scall dcode [] fs0).
Notation sas := (map (fun kg : option str * dval => (fst kg, sg (snd kg)))).
Variable py : python.
Hypothesis Htidy : tidy _ _ h.

(** ** No value leads to another template *)
Definition fok (t : tplfun (str * dcode)) : Prop := match f_code _ t with Code _ c => Forall by_itself (snd c) | Trampoline _ _ => True end.
Definition vok (g : dval) : Prop := match g with GObj _ _ (RC _ b _ _) => Forall by_itself b | GFun _ _ t => fok t | _ => True end.
Hypothesis Hglobals : forall i k g, get k (globals _ _ h i) = Some g -> vok g.
Hypothesis Hattrs : forall i k t, get k (attrs _ _ h i) = Some t -> fok t.
Definition frame_ok (fr : frame dcode) : Prop := forall k g, get k (fr_vars fr) = Some g -> vok g.
Definition wok (w : dworld) : Prop := w_heap w = h /\ Forall frame_ok (w_frames w).
Definition cok (c : callable dcode) : Prop := Forall by_itself (snd (fst (fst c))).

Lemma find_ok : forall fs x scopes err g, Forall frame_ok fs -> find_name fs err scopes x = Some (Ok g) -> vok g.
Proof.
  intros fs x scopes. induction scopes as [|f scopes IH]; intros err g F E; [discriminate|]. cbn [find_name] in E. destruct (nth_error fs f) as [fr|] eqn:Nf; [|now apply (IH _ g F E)]. destruct (smem x (fr_names fr)); [|now apply (IH _ g F E)].
  rewrite Forall_forall in F. pose proof (F fr (nth_error_In _ _ Nf) x) as Fr. destruct (get x (fr_vars fr)) as [g'|]; [|discriminate]. injection E as <-. now apply Fr.
Qed.
Lemma lookup_ok : forall w p x g, wok w -> lookup py w p x = Ok g -> vok g.
Proof.
  intros w p x g [Ew F] E. unfold lookup in E. destruct (find_name (w_frames w) "UnboundLocalError" (p_scopes p) x) as [r|] eqn:Fn; [subst r; now apply (find_ok _ _ _ _ _ F Fn)|]. rewrite Ew in E. unfold resolve in E.
  destruct (get x (globals _ _ h (p_inst p))) as [g'|] eqn:G; [injection E as <-; now apply (Hglobals _ _ _ G)|]. destruct (builtin_value py x); [|discriminate]. cbn in E. injection E as <-. exact Logic.I.
Qed.
Lemma put_frame_ok : forall fs i fr, Forall frame_ok fs -> frame_ok fr -> Forall frame_ok (put_frame fs i fr).
Proof. intros fs i fr F. revert i. induction F as [|x fs Hx F IH]; intros [|i] Hf; cbn [put_frame]; constructor; try assumption. now apply IH. Qed.
Lemma set_name_ok : forall w p x g, wok w -> vok g -> wok (set_name w p x g).
Proof.
  intros w p x g [Ew F] V. split; [now rewrite set_name_heap|]. unfold set_name. destruct (p_scopes p) as [|f ss]; [exact F|]. destruct (nth_error (w_frames w) f) as [fr|] eqn:Nf; [|exact F]. cbn [w_frames]. apply put_frame_ok; [exact F|].
  intros k g' G. cbn [fr_vars] in G. rewrite get_set in G. destruct (seqb k x); [injection G as <-; exact V|]. rewrite Forall_forall in F. exact (F fr (nth_error_In _ _ Nf) k g' G).
Qed.
Lemma set_names_ok : forall p l w, wok w -> Forall (fun kv => vok (snd kv)) l -> wok (set_names w p l).
Proof. intros p l. induction l as [|[x g] l IH]; intros w W F; [exact W|]. apply Forall_cons_iff in F as [F1 F2]. cbn [set_names]. apply IH; [now apply set_name_ok|exact F2]. Qed.
Lemma local_ok : forall w p x g, wok w -> local_value w p x = Some g -> vok g.
Proof.
  intros w p x g [Ew F] E. unfold local_value in E. destruct (p_scopes p) as [|f ss]; [discriminate|]. destruct (nth_error (w_frames w) f) as [fr|] eqn:Nf; [|discriminate]. rewrite Forall_forall in F. exact (F fr (nth_error_In _ _ Nf) x g E).
Qed.
Lemma arg_ok : forall w p a g, wok w -> eval_arg py w p a = Ok g -> vok g.
Proof. intros w p [x|xs f] g W E; cbn [eval_arg] in E; [now apply (lookup_ok w p x)|]. destruct (f (reads py w p xs)); [|discriminate]. injection E as <-. exact Logic.I. Qed.
Lemma args_ok : forall w p l r, wok w -> eval_args py w p l = Ok r -> Forall (fun kg => vok (snd kg)) r.
Proof.
  intros w p l. induction l as [|[k a] l IH]; intros r W E; cbn [eval_args] in E; [injection E as <-; constructor|]. destruct (eval_arg py w p a) as [g|] eqn:A; [|discriminate]. cbn [rbind] in E. destruct (eval_args py w p l) as [r'|]; [|discriminate]. injection E as <-.
  constructor; [now apply (arg_ok w p a)|now apply IH].
Qed.
Lemma target_ok : forall fuel t c i, fok t -> target _ _ (fun k => option_map val (builtin_value py k)) fuel h t = Ok (c, i) -> Forall by_itself (snd c).
Proof.
  induction fuel as [|fuel IH]; intros [[c0|k] j] c i T E; cbn [target f_code f_inst] in E; try discriminate; try (injection E as <- <-; exact T).
  destruct (resolve _ _ _ h j (L "parent")) as [g|]; [|discriminate]. cbn [rbind] in E. destruct (as_instance _ _ h g) as [q|]; [|discriminate]. cbn [rbind] in E. unfold getattr in E. destruct (get k (attrs _ _ h q)) as [t|] eqn:G; [|discriminate]. cbn [rbind] in E. apply (IH t c i); [now apply (Hattrs q k)|exact E].
Qed.
Lemma callable_ok : forall t c, fok t -> tpl_callable py h t = Ok c -> cok c.
Proof.
  intros t c T E. unfold tpl_callable in E. destruct (target _ _ _ (S (length h)) h t) as [[[d b] i]|] eqn:X; [|discriminate]. cbn in E. injection E as <-. exact (target_ok _ _ _ _ T X).
Qed.
Lemma method_ok : forall i k t, method h i k = Ok t -> fok t.
Proof. intros i k t E. unfold method, getattr in E. destruct (get k (attrs _ _ h i)) as [t'|] eqn:G; [injection E as <-; now apply (Hattrs i k)|]. destruct (smem k template_attributes) in E; discriminate E. Qed.
Lemma callee_ok : forall w p c f, wok w -> find_callee py w p c = Ok (FTemplate f) -> cok f.
Proof.
  intros w p [x|o k] f W E; cbn [find_callee] in E; pose proof W as [Ew _].
  - destruct (lookup py w p x) as [g|] eqn:X; [|discriminate]. pose proof (lookup_ok _ _ _ _ W X) as V. cbn [rbind] in E. destruct g as [[v|d b i ss]|i|t|i|i| | | |]; try discriminate.
    + injection E as <-. exact V.
    + rewrite Ew in E. destruct (tpl_callable py h t) as [c|] eqn:T; [|discriminate]. injection E as <-. now apply (callable_ok t).
  - destruct (lookup py w p o) as [g|] eqn:X; [|discriminate]. cbn [rbind] in E. destruct g as [[v|d b i ss]|i|t|i|i| | | |]; try discriminate. rewrite Ew in E.
    destruct (method h i k) as [t|] eqn:Mt; [|discriminate]. cbn [rbind] in E. destruct (tpl_callable py h t) as [c|] eqn:T; [|discriminate]. injection E as <-. apply (callable_ok t); [now apply (method_ok i k)|exact T].
Qed.
Lemma eval_ok : forall w p e g, wok w -> eval py w p e = Ok g -> vok g.
Proof.
  intros w p e g W E. destruct e as [x|o k|xs f|c args]; cbn [eval] in E.
  - now apply (lookup_ok w p x).
  - destruct (lookup py w p o) as [g'|]; [|discriminate]. cbn [rbind] in E. destruct g' as [[v|d b i ss]|i|t|i|i| | | |]; try discriminate.
    + destruct (value_attr py v k); [|discriminate]. injection E as <-. exact Logic.I.
    + rewrite (proj1 W) in E. destruct (method h i k) as [t|] eqn:Mt; [|discriminate]. injection E as <-. exact (method_ok _ _ _ Mt).
  - destruct (f (reads py w p xs)); [|discriminate]. injection E as <-. exact Logic.I.
  - destruct (find_callee py w p c) as [fo|]; [|discriminate]. cbn [rbind] in E. destruct (eval_args py w p args) as [l|]; [|discriminate]. cbn [rbind] in E. destruct fo as [f|v|v k|b]; [discriminate|..];
    match type of E with rmap _ ?r = _ => destruct r end; try discriminate; injection E as <-; exact Logic.I.
Qed.
Lemma rseq_all : forall A B (P : B -> Prop) (f : A -> result B) l r, (forall a b, f a = Ok b -> P b) -> rseq (map f l) = Ok r -> Forall P r.
Proof.
  intros A B P f l. induction l as [|a l IH]; intros r H E; cbn [map rseq] in E; [injection E as <-; constructor|]. destruct (f a) as [b|] eqn:Fa; [|discriminate]. cbn [rbind] in E. destruct (rseq (map f l)) as [r'|]; [|discriminate]. injection E as <-. constructor; [now apply (H a)|now apply IH].
Qed.
Lemma combine_ok : forall (xs : list str) vs, Forall (fun kv : str * dval => vok (snd kv)) (combine xs (map (@val dcode) vs)).
Proof. induction xs as [|x xs IH]; intros [|v vs]; try exact (Forall_nil _). cbn [combine map]. constructor; [exact Logic.I|apply IH]. Qed.
Lemma rounds_ok : forall w p d l, rounds py w p d = Ok l -> Forall (Forall (fun kv : str * dval => vok (snd kv))) l.
Proof.
  intros w p d l E. unfold rounds in E. destruct (parse_for py d) as [xs e]. destruct (eval py w p e) as [g|]; [|discriminate]. cbn [rbind] in E. destruct (iterate py (as_value g)) as [items|]; [|discriminate]. cbn [rbind] in E.
  eapply rseq_all; [|exact E]. intros v b Eb.
  assert (U : forall ys : list str, rbind (unpack py v) (fun vs => if Nat.eqb (length vs) (length ys) then Ok (combine ys (map (@val dcode) vs)) else Raise "ValueError") = Ok b -> Forall (fun kv : str * dval => vok (snd kv)) b).
  { intros ys X. destruct (unpack py v) as [vs|]; [|discriminate]. cbn [rbind] in X. destruct (Nat.eqb (length vs) (length ys)); [|discriminate]. injection X as <-. apply combine_ok. }
  destruct xs as [|x [|x2 xs]]; [now apply (U [])| |now apply (U (x :: x2 :: xs))]. injection Eb as <-. constructor; [exact Logic.I|constructor].
Qed.
Lemma bind_some_ok : forall p xs vs w, wok w -> wok (bind_some w p xs vs).
Proof. intros p xs. induction xs as [|x xs IH]; intros [|[v|] vs] w W; try exact W; cbn [bind_some]; [|now apply IH]. apply IH. apply set_name_ok; [exact W|exact Logic.I]. Qed.
Lemma block_ok : forall p l w ow, wok w -> run_block py w p l = Ok ow -> wok (snd ow).
Proof.
  intros p l. induction l as [|[x e|xs ys f] l IH]; intros w ow W E; cbn [run_block] in E; [injection E as <-; exact W| |].
  - destruct (eval py w p e) as [g|] eqn:X; [|discriminate]. cbn [rbind] in E. eapply IH; [|exact E]. apply set_name_ok; [exact W|]. now apply (eval_ok w p e).
  - destruct (f (reads py w p xs)) as [[o vs]|]; [|discriminate]. cbn [rbind fst snd] in E. destruct (run_block py (bind_some w p ys vs) p l) as [[o' w']|] eqn:R; [|discriminate]. injection E as <-. cbn [snd]. exact (IH _ _ (bind_some_ok p ys vs w W) R).
Qed.
Lemma bind_args_ok : forall d args l, Forall (fun kg => vok (snd kg)) args -> bind_args py d args = Ok l -> Forall (fun kv => vok (snd kv)) l.
Proof.
  intros d args l F E. unfold bind_args in E. destruct (bind_params py d (map fst args)) as [ps|]; [|discriminate]. cbn [rbind] in E. eapply rseq_all; [|exact E]. intros [x [k|v]] b Eb; cbn [fst snd] in Eb; [|injection Eb as <-; exact Logic.I].
  destruct (nth_error args k) as [a|] eqn:Na; [|discriminate]. injection Eb as <-. cbn [snd]. rewrite Forall_forall in F. exact (F a (nth_error_In _ _ Na)).
Qed.

(** ** Later, with more calls behind *)
Definition rw (w w' : dworld) : Prop := wok w /\ w' = sw w.
Definition rm {A : Type} (a b : A * dworld) : Prop := fst a = fst b /\ rw (snd a) (snd b).
Lemma rw_tidy : forall w w', rw w w' -> tidy _ _ (w_heap w).
Proof. intros w w' [[-> _] _]. exact Htidy. Qed.
Variable load : bool -> str -> result (cls (fobj dcode) (str * dcode)).
Variable invoke : callable dcode -> list (str * dval) -> dworld -> result (list value * dworld).
Hypothesis Hinv : forall c params w w', cok c -> Forall (fun kv => vok (snd kv)) params -> rw w w' -> simr rm (invoke c params w) (invoke (scall c) (sd params) w').
Variable p : place.

Lemma call_again : forall c args w w', cok c -> Forall (fun kg => vok (snd kg)) args -> rw w w' -> simr rm (call_function py invoke c args w) (call_function py invoke (scall c) (sas args) w').
Proof.
  intros c args w w' C F H. unfold call_function. eapply simr_bind_f; [destruct c as [[[d b] i] ss]; cbn [P_Shift.scall fst]; apply bind_args_sh|]. intros params E. eapply simr_map; [apply Hinv; [exact C|now apply (bind_args_ok _ _ _ F E)|exact H]|]. intros [o s1] [o' s1'] [Eo R]. cbn in Eo. subst. now split.
Qed.
Lemma show_again : forall x w w', rw w w' -> simr rm (show_value py (fun w => w) invoke p x w) (show_value py (fun w => w) invoke (sp p) x w').
Proof.
  intros x w w' H. pose proof (rw_tidy _ _ H) as T. pose proof H as [W ->]. unfold show_value.
  assert (V : simr rm (rmap (fun v => (v, w)) (evalue py w p x)) (rmap (fun v => (v, sw w)) (evalue py (sw w) (sp p) x))).
  { eapply simr_map_f; [apply evalue_sim; exact T|]. intros v _. now split. }
  destruct (parse py x) as [y|o k|xs f|c args]; try exact V. eapply simr_bind_f; [apply callee_sim; exact T|]. intros fo Ef. destruct fo as [f|v|v k|g]; cbn [sfound]; try exact V.
  eapply simr_bind_f; [apply args_sh|]. intros l El. apply call_again; [now apply (callee_ok w p c)|now apply (args_ok w p args)|exact H].
Qed.
Lemma then_again : forall a a' k k', simr rm a a' -> (forall w w', rw w w' -> simr rm (k w) (k' w')) -> simr rm (then_ a k) (then_ a' k').
Proof.
  intros a a' k k' H K. unfold then_. eapply simr_bind; [exact H|]. intros [o w] [o' w'] [E R]. cbn in E. subst. cbn [fst snd] in *. eapply simr_map; [now apply K|]. intros [o2 w2] [o2' w2'] [E R2]. cbn in E. subst. now split.
Qed.
Lemma under_again : forall g w w' a a', rw w w' -> simr rm a a' -> simr rm (under py p g w a) (under py (sp p) g w' a').
Proof.
  intros g w w' a a' H A. unfold under. destruct (truthy_guard g) as [c|]; [|exact A]. pose proof H as [W ->]. eapply simr_bind_f; [apply condition_sim; exact (rw_tidy _ _ H)|]. intros [|] _; [exact A|now split].
Qed.
Lemma rw_set : forall w w' x g, rw w w' -> vok g -> rw (set_name w p x g) (set_name w' (sp p) x (sg g)).
Proof. intros w w' x g [W ->] V. split; [now apply set_name_ok|]. apply set_name_sh. Qed.
Lemma rw_sets : forall w w' l, rw w w' -> Forall (fun kv => vok (snd kv)) l -> rw (set_names w p l) (set_names w' (sp p) (sd l)).
Proof. intros w w' l [W ->] V. split; [now apply set_names_ok|]. apply set_names_sh. Qed.
Lemma assigns_again : forall vars w w', rw w w' -> simr rw (assigns py p vars w) (assigns py (sp p) vars w').
Proof.
  induction vars as [|[k x] vars IH]; intros w w' H; cbn [assigns]; [exact H|]. pose proof H as [W ->]. eapply simr_bind_f; [apply eval_sim; exact (rw_tidy _ _ H)|]. intros g E. apply IH. apply rw_set; [exact H|]. now apply (eval_ok w p (parse py x)).
Qed.
Lemma old_again : forall ks w w', rw w w' -> old_values (sp p) ks w' = sd (old_values p ks w) /\ Forall (fun kv => vok (snd kv)) (old_values p ks w).
Proof.
  intros ks w w' [W ->]. unfold old_values. split.
  - unfold mapv. rewrite map_map. apply map_ext. intros k. rewrite local_sh. cbn [fst snd]. now destruct (local_value w p k).
  - apply Forall_map. apply Forall_forall. intros k _. cbn [snd]. destruct (local_value w p k) eqn:E; [now apply (local_ok w p k)|exact Logic.I].
Qed.
Lemma define_again : forall d b w w', rw w w' -> Forall by_itself b -> rw (define p d b w) (define (sp p) d b w').
Proof. intros d b w w' H B. unfold define. exact (rw_set w w' (fun_name d) (GObj _ _ (RC d b (p_inst p) (p_scopes p))) H B). Qed.
Lemma each_again : forall body body', (forall w w', rw w w' -> simr rm (body w) (body' w')) -> forall l w w', rw w w' -> Forall (Forall (fun kv => vok (snd kv))) l ->
  simr rm (for_each p body l w) (for_each (sp p) body' (map sd l) w').
Proof.
  intros body body' Hb. induction l as [|r l IH]; intros w w' H F; [now split|]. apply Forall_cons_iff in F as [F1 F2]. cbn [map for_each]. apply then_again; [apply Hb; now apply rw_sets|]. intros w1 w1' H1. now apply IH.
Qed.
Lemma all_itself : forall l, (fix go (l : list rstm) : Prop := match l with [] => True | m :: l' => by_itself m /\ go l' end) l <-> Forall by_itself l.
Proof. induction l as [|s l IH]; [split; constructor|]. rewrite Forall_cons_iff, IH. reflexivity. Qed.
Lemma cases_itself : forall l, (fix go (l : list (str * list rstm)) : Prop := match l with [] => True | (_, b) :: l' => (fix go (l : list rstm) : Prop := match l with [] => True | m :: l' => by_itself m /\ go l' end) b /\ go l' end) l <-> Forall (fun cb => Forall by_itself (snd cb)) l.
Proof. induction l as [|[c b] l IH]; [split; constructor|]. rewrite Forall_cons_iff, IH, all_itself. reflexivity. Qed.
Notation meaning1 := (meaning py load invoke p).
Notation meaning2 := (meaning py load invoke (sp p)).
Definition same_step (s : rstm) : Prop := by_itself s -> forall w w', rw w w' -> simr rm (meaning1 s w) (meaning2 s w').
Lemma means_again : forall l, Forall same_step l -> Forall by_itself l -> forall w w', rw w w' -> simr rm (means py load invoke p l w) (means py load invoke (sp p) l w').
Proof.
  intros l F. induction F as [|s l Hs F IH]; intros B w w' H; [now split|]. apply Forall_cons_iff in B as [B1 B2]. cbn [means]. apply then_again; [now apply Hs|]. intros w1 w1' H1. now apply IH.
Qed.
Lemma meaning_again : forall s, same_step s.
Proof.
  induction s as [ |t g|t g|x s|c b els Hb He|d b els Hb He|v b Hb|d cs els Hc He|a v g m Hv|x g m|d b Hb|d c b Hb|t a|t|t|l] using rstm_ind'; intros B w w' H; cbn [by_itself] in B; try contradiction; pose proof (rw_tidy _ _ H) as T; pose proof H as [W Ew].
  - now split.
  - cbn [meaning]. apply under_again; [exact H|now split].
  - cbn [meaning]. apply under_again; [exact H|]. destruct (strip t); [now split|]. subst w'. rewrite translate_sh. destruct (translate py w p t); [now split|reflexivity].
  - cbn [meaning]. eapply simr_map; [now apply show_again|]. intros [v w1] [v' w1'] [E R]. cbn in E. subst. now split.
  - rewrite !all_itself in B. destruct B as [B1 B2]. cbn [meaning]. subst w'. eapply simr_bind_f; [apply condition_sim; exact T|]. intros [|] _; [exact (means_again b Hb B1 _ _ H)|exact (means_again els He B2 _ _ H)].
  - rewrite !all_itself in B. destruct B as [B1 B2]. cbn [meaning]. subst w'. eapply simr_bind_f; [apply rounds_sim; exact T|]. intros l El. apply then_again; [|intros w1 w1' H1; exact (means_again els He B2 _ _ H1)].
    apply each_again; [intros w1 w1' H1; exact (means_again b Hb B1 _ _ H1)|exact H|now apply (rounds_ok w p d)].
  - rewrite all_itself in B. cbn [meaning]. eapply simr_bind; [now apply assigns_again|]. intros w1 w1' H1. eapply simr_map; [exact (means_again b Hb B _ _ H1)|]. intros [o w2] [o' w2'] [E R]. cbn in E. subst o'. split; [reflexivity|]. cbn [fst snd] in *.
    destruct (old_again (map fst v) w w' H) as [Eo Fo]. rewrite Eo. now apply rw_sets.
  - rewrite all_itself, cases_itself in B. destruct B as [B1 B2]. cbn [meaning]. subst w'. eapply simr_bind_f; [apply evalue_sim; exact T|]. intros x _. 
    clear T. induction Hc as [|[c b] cs Hb Hc IH]; [exact (means_again els He B2 _ _ H)|]. apply Forall_cons_iff in B1 as [B1 B3]. cbn [snd] in *. eapply simr_bind_f; [apply evalue_sim; exact (rw_tidy _ _ H)|]. intros v _. destruct (veq py v x); [exact (means_again b Hb B1 _ _ H)|now apply IH].
  - rewrite all_itself in B. cbn [meaning]. apply under_again; [exact H|]. eapply simr_bind; [apply (Hinv ([], v, p_inst p, p_scopes p) [] w w'); [exact B|exact (Forall_nil _)|exact H]|]. intros [o w1] [o' w1'] [E R]. cbn in E. subst o'. cbn [fst snd] in *.
    destruct (collect o); [|reflexivity]. cbn [rbind]. destruct (render_attrs _ m); [|reflexivity]. now split.
  - cbn [meaning]. apply under_again; [exact H|]. subst w'. eapply simr_bind_f; [apply attributes_sim; exact T|]. intros at' _. destruct (render_attrs at' m); [|reflexivity]. now split.
  - rewrite all_itself in B. cbn [meaning]. split; [reflexivity|]. now apply define_again.
  - rewrite all_itself in B. cbn [meaning]. eapply simr_map; [apply show_again; now apply define_again|]. intros [v w1] [v' w1'] [E R]. cbn in E. subst. now split.
  - cbn [meaning]. subst w'. pose proof (block_sim dcode [] fs0 py p (python_of py l) w T) as S1. unfold sim in S1. rewrite S1. destruct (run_block py w p (python_of py l)) as [[o w1]|] eqn:R; [|reflexivity]. cbn. split; [reflexivity|]. split; [|reflexivity]. exact (block_ok _ _ _ _ W R).
Qed.
End Again.

Lemma apply_again : forall h fs0 py, tidy _ _ h -> (forall i k g, get k (globals _ _ h i) = Some g -> vok g) -> (forall i k t, get k (attrs _ _ h i) = Some t -> fok t) ->
  forall load depth c params w w', cok c -> Forall (fun kv => vok (snd kv)) params -> rw h fs0 w w' ->
  simr (rm h fs0) (apply py load depth c params w) (apply py load depth (scall dcode [] fs0 c) (mapv (sg dcode [] fs0) params) w').
Proof.
  intros h fs0 py T G A load depth. induction depth as [|depth IH]; intros [[[d b] i] ss] params w w' C P H; [reflexivity|]. cbn [apply scall]. pose proof H as [W ->]. cbn [sw w_frames w_heap]. unfold sfs at 1. rewrite app_length, map_length.
  change (Place (length (@nil (inst (fobj dcode) (str * dcode))) + i) (length fs0 + length (w_frames w) :: map (Nat.add (length fs0)) ss)) with (sp dcode [] fs0 (Place i (length (w_frames w) :: ss))).
  apply (means_again h fs0 py load (apply py load depth) (Place i (length (w_frames w) :: ss)) b); [|exact C|].
  - apply Forall_forall. intros s _. apply (meaning_again h fs0 py T G A load (apply py load depth) IH).
  - split.
    + destruct W as [Ew F]. split; [exact Ew|]. cbn [w_frames]. apply Forall_app. split; [exact F|]. constructor; [|constructor]. intros k g E. cbn [fr_vars] in E. clear -P E.
      induction P as [|[k' g'] ps H P IH]; cbn [get] in E; [discriminate|]. destruct (seqb k k'); [injection E as <-; exact H|now apply IH].
    + unfold sw. cbn [w_heap w_frames]. f_equal. unfold sfs. rewrite map_app, <- app_assoc. cbn [map]. do 2 f_equal. unfold sf. cbn [fr_names fr_vars]. do 2 f_equal. unfold mapv. now rewrite map_map.
Qed.
