(** * Proofs: iterations over one object that run at the same time *)

From Coq Require Import Ascii String List Arith NArith ZArith Bool Lia.
From Verif Require Import PyStr PyStrLemmas M_Values M_IR S_IR M_Template P_Template P_Deep M_Run P_Run11 P_Shift M_Conc M_Same S_Same.
From Verif Require M_Exec.
Import ListNotations.
Open Scope list_scope.

(** ** Code that leaves the object alone *)
Definition steady_stmt (q : pstmt) : Prop :=
  match q with PPushWith _ | PPopWith _ | PPushSwitch _ | PPopSwitch | PImport _ _ | PInclude _ | PExtend _ => False | _ => True end.
Fixpoint steady_blk (b : blk) : Prop :=
  match b with
  | St q => steady_stmt q
  | Bl _ body => (fix go (l : list blk) : Prop := match l with [] => True | m :: l' => steady_blk m /\ go l' end) body
  | _ => True
  end.
Lemma steady_body : forall l, (fix go (l : list blk) : Prop := match l with [] => True | m :: l' => steady_blk m /\ go l' end) l <-> Forall steady_blk l.
Proof. induction l as [|b l IH]; [split; [constructor|trivial]|]. rewrite Forall_cons_iff, IH. reflexivity. Qed.
Lemma steady_join : forall l, Forall steady_blk l -> Forall steady_blk (join_texts l).
Proof.
  intros l F. induction F as [|b l B F IH]; [constructor|]. destruct b as [t g|q|h b|ls]; cbn [join_texts]; try (constructor; assumption).
  destruct (join_texts l) as [|[t' g'|q|h b|ls] r]; try (constructor; assumption). apply Forall_cons_iff in IH as [_ IH]. destruct (oseqb g g'); [constructor; [exact Logic.I|exact IH]|constructor; [exact Logic.I|constructor; [exact Logic.I|exact IH]]].
Qed.

Section Steady.
Variable h : heap (fobj bcode) (str * bcode).
Variable py : python.

(** ** No value leads to another template *)
Definition fok (t : tplfun (str * bcode)) : Prop := match f_code _ t with Code _ c => Forall steady_blk (snd c) | Trampoline _ _ => True end.
Definition vok (g : bval) : Prop := match g with GObj _ _ (RC _ b _ _) => Forall steady_blk b | GFun _ _ t => fok t | _ => True end.
Hypothesis Hglobals : forall i k g, get k (globals _ _ h i) = Some g -> vok g.
Hypothesis Hattrs : forall i k t, get k (attrs _ _ h i) = Some t -> fok t.
Definition frame_ok (fr : frame bcode) : Prop := forall k g, get k (fr_vars fr) = Some g -> vok g.
Definition wok (w : (world bcode)) : Prop := w_heap w = h /\ Forall frame_ok (w_frames w).
Definition cok (c : callable bcode) : Prop := Forall steady_blk (snd (fst (fst c))).

Lemma find_ok : forall fs x scopes err g, Forall frame_ok fs -> find_name fs err scopes x = Some (Ok g) -> vok g.
Proof.
  intros fs x scopes. induction scopes as [|f scopes IH]; intros err g F E; [discriminate|]. cbn [find_name] in E. destruct (nth_error fs f) as [fr|] eqn:Nf; [|now apply (IH _ g F E)]. destruct (smem x (fr_names fr)); [|now apply (IH _ g F E)].
  rewrite Forall_forall in F. pose proof (F fr (nth_error_In _ _ Nf) x) as Fr. destruct (get x (fr_vars fr)) as [g'|]; [|discriminate]. injection E as <-. now apply Fr.
Qed.
Lemma lookup_ok : forall w p x g, wok w -> lookup py w p x = Ok g -> vok g.
Proof.
  intros w p x g [Ew F] E. unfold lookup in E. destruct (find_name (w_frames w) "UnboundLocalError" (p_scopes p) x) as [r|] eqn:Fn; [subst r; now apply (find_ok _ _ _ _ _ F Fn)|]. rewrite Ew in E. unfold resolve in E.
  destruct (get x (globals _ _ h (p_inst p))) as [g'|] eqn:G; [injection E as <-; now apply (Hglobals _ _ _ G)|]. destruct (builtin_value py x); [|discriminate]. cbn in E. injection E as <-. exact Logic.I.
Qed.
Lemma put_frame_ok : forall fs i fr, Forall frame_ok fs -> frame_ok fr -> Forall frame_ok (put_frame fs i fr).
Proof. intros fs i fr F. revert i. induction F as [|x fs Hx F IH]; intros [|i] Hf; cbn [put_frame]; constructor; try assumption. now apply IH. Qed.
Lemma set_name_ok : forall w p x g, wok w -> vok g -> wok (set_name w p x g).
Proof.
  intros w p x g [Ew F] V. split; [now rewrite set_name_heap|]. unfold set_name. destruct (p_scopes p) as [|f ss]; [exact F|]. destruct (nth_error (w_frames w) f) as [fr|] eqn:Nf; [|exact F]. cbn [w_frames]. apply put_frame_ok; [exact F|].
  intros k g' G. cbn [fr_vars] in G. rewrite get_set in G. destruct (seqb k x); [injection G as <-; exact V|]. rewrite Forall_forall in F. exact (F fr (nth_error_In _ _ Nf) k g' G).
Qed.
Lemma set_names_ok : forall p l w, wok w -> Forall (fun kv => vok (snd kv)) l -> wok (set_names w p l).
Proof. intros p l. induction l as [|[x g] l IH]; intros w W F; [exact W|]. apply Forall_cons_iff in F as [F1 F2]. cbn [set_names]. apply IH; [now apply set_name_ok|exact F2]. Qed.
Lemma arg_ok : forall w p a g, wok w -> eval_arg py w p a = Ok g -> vok g.
Proof. intros w p [x|xs f] g W E; cbn [eval_arg] in E; [now apply (lookup_ok w p x)|]. destruct (f (reads py w p xs)); [|discriminate]. injection E as <-. exact Logic.I. Qed.
Lemma args_ok : forall w p l r, wok w -> eval_args py w p l = Ok r -> Forall (fun kg => vok (snd kg)) r.
Proof.
  intros w p l. induction l as [|[k a] l IH]; intros r W E; cbn [eval_args] in E; [injection E as <-; constructor|]. destruct (eval_arg py w p a) as [g|] eqn:A; [|discriminate]. cbn [rbind] in E. destruct (eval_args py w p l) as [r'|]; [|discriminate]. injection E as <-.
  constructor; [now apply (arg_ok w p a)|now apply IH].
Qed.
Lemma target_ok : forall fuel t c i, fok t -> target _ _ (fun k => option_map val (builtin_value py k)) fuel h t = Ok (c, i) -> Forall steady_blk (snd c).
Proof.
  induction fuel as [|fuel IH]; intros [[c0|k] j] c i T E; cbn [target f_code f_inst] in E; try discriminate; try (injection E as <- <-; exact T).
  destruct (resolve _ _ _ h j (L "parent")) as [g|]; [|discriminate]. cbn [rbind] in E. destruct (as_instance _ _ h g) as [q|]; [|discriminate]. cbn [rbind] in E. unfold getattr in E. destruct (get k (attrs _ _ h q)) as [t|] eqn:G; [|discriminate]. cbn [rbind] in E. apply (IH t c i); [now apply (Hattrs q k)|exact E].
Qed.
Lemma callable_ok : forall t c, fok t -> tpl_callable py h t = Ok c -> cok c.
Proof.
  intros t c T E. unfold tpl_callable in E. destruct (target _ _ _ (S (length h)) h t) as [[[d b] i]|] eqn:X; [|discriminate]. cbn in E. injection E as <-. exact (target_ok _ _ _ _ T X).
Qed.
Lemma method_ok : forall i k t, method h i k = Ok t -> fok t.
Proof. intros i k t E. unfold method, getattr in E. destruct (get k (attrs _ _ h i)) as [t'|] eqn:G; [injection E as <-; now apply (Hattrs i k)|]. destruct (smem k template_attributes) in E; discriminate E. Qed.
Lemma callee_ok : forall w p c f, wok w -> find_callee py w p c = Ok (FTemplate f) -> cok f.
Proof.
  intros w p [x|o k] f W E; cbn [find_callee] in E; pose proof W as [Ew _].
  - destruct (lookup py w p x) as [g|] eqn:X; [|discriminate]. pose proof (lookup_ok _ _ _ _ W X) as V. cbn [rbind] in E. destruct g as [[v|d b i ss]|i|t|i|i| | | |]; try discriminate.
    + injection E as <-. exact V.
    + rewrite Ew in E. destruct (tpl_callable py h t) as [c|] eqn:T; [|discriminate]. injection E as <-. now apply (callable_ok t).
  - destruct (lookup py w p o) as [g|] eqn:X; [|discriminate]. cbn [rbind] in E. destruct g as [[v|d b i ss]|i|t|i|i| | | |]; try discriminate. rewrite Ew in E.
    destruct (method h i k) as [t|] eqn:Mt; [|discriminate]. cbn [rbind] in E. destruct (tpl_callable py h t) as [c|] eqn:T; [|discriminate]. injection E as <-. apply (callable_ok t); [now apply (method_ok i k)|exact T].
Qed.
Lemma eval_ok : forall w p e g, wok w -> eval py w p e = Ok g -> vok g.
Proof.
  intros w p e g W E. destruct e as [x|o k|xs f|c args]; cbn [eval] in E.
  - now apply (lookup_ok w p x).
  - destruct (lookup py w p o) as [g'|]; [|discriminate]. cbn [rbind] in E. destruct g' as [[v|d b i ss]|i|t|i|i| | | |]; try discriminate.
    + destruct (value_attr py v k); [|discriminate]. injection E as <-. exact Logic.I.
    + rewrite (proj1 W) in E. destruct (method h i k) as [t|] eqn:Mt; [|discriminate]. injection E as <-. exact (method_ok _ _ _ Mt).
  - destruct (f (reads py w p xs)); [|discriminate]. injection E as <-. exact Logic.I.
  - destruct (find_callee py w p c) as [fo|]; [|discriminate]. cbn [rbind] in E. destruct (eval_args py w p args) as [l|]; [|discriminate]. cbn [rbind] in E. destruct fo as [f|v|v k|b]; [discriminate|..];
    match type of E with rmap _ ?r = _ => destruct r end; try discriminate; injection E as <-; exact Logic.I.
Qed.
Lemma rseq_all : forall A B (P : B -> Prop) (f : A -> result B) l r, (forall a b, f a = Ok b -> P b) -> rseq (map f l) = Ok r -> Forall P r.
Proof.
  intros A B P f l. induction l as [|a l IH]; intros r H E; cbn [map rseq] in E; [injection E as <-; constructor|]. destruct (f a) as [b|] eqn:Fa; [|discriminate]. cbn [rbind] in E. destruct (rseq (map f l)) as [r'|]; [|discriminate]. injection E as <-. constructor; [now apply (H a)|now apply IH].
Qed.
Lemma combine_ok : forall (xs : list str) vs, Forall (fun kv : str * bval => vok (snd kv)) (combine xs (map (@val bcode) vs)).
Proof. induction xs as [|x xs IH]; intros [|v vs]; try exact (Forall_nil _). cbn [combine map]. constructor; [exact Logic.I|apply IH]. Qed.
Lemma rounds_ok : forall w p d l, rounds py w p d = Ok l -> Forall (Forall (fun kv : str * bval => vok (snd kv))) l.
Proof.
  intros w p d l E. unfold rounds in E. destruct (parse_for py d) as [xs e]. destruct (eval py w p e) as [g|]; [|discriminate]. cbn [rbind] in E. destruct (iterate py (as_value g)) as [items|]; [|discriminate]. cbn [rbind] in E.
  eapply rseq_all; [|exact E]. intros v b Eb.
  assert (U : forall ys : list str, rbind (unpack py v) (fun vs => if Nat.eqb (length vs) (length ys) then Ok (combine ys (map (@val bcode) vs)) else Raise "ValueError") = Ok b -> Forall (fun kv : str * bval => vok (snd kv)) b).
  { intros ys X. destruct (unpack py v) as [vs|]; [|discriminate]. cbn [rbind] in X. destruct (Nat.eqb (length vs) (length ys)); [|discriminate]. injection X as <-. apply combine_ok. }
  destruct xs as [|x [|x2 xs]]; [now apply (U [])| |now apply (U (x :: x2 :: xs))]. injection Eb as <-. constructor; [exact Logic.I|constructor].
Qed.
Lemma bind_some_ok : forall p xs vs w, wok w -> wok (bind_some w p xs vs).
Proof. intros p xs. induction xs as [|x xs IH]; intros [|[v|] vs] w W; try exact W; cbn [bind_some]; [|now apply IH]. apply IH. apply set_name_ok; [exact W|exact Logic.I]. Qed.
Lemma block_ok : forall p l w ow, wok w -> run_block py w p l = Ok ow -> wok (snd ow).
Proof.
  intros p l. induction l as [|[x e|xs ys f] l IH]; intros w ow W E; cbn [run_block] in E; [injection E as <-; exact W| |].
  - destruct (eval py w p e) as [g|] eqn:X; [|discriminate]. cbn [rbind] in E. eapply IH; [|exact E]. apply set_name_ok; [exact W|]. now apply (eval_ok w p e).
  - destruct (f (reads py w p xs)) as [[o vs]|]; [|discriminate]. cbn [rbind fst snd] in E. destruct (run_block py (bind_some w p ys vs) p l) as [[o' w']|] eqn:R; [|discriminate]. injection E as <-. cbn [snd]. exact (IH _ _ (bind_some_ok p ys vs w W) R).
Qed.
Lemma bind_args_ok : forall d args l, Forall (fun kg => vok (snd kg)) args -> bind_args py d args = Ok l -> Forall (fun kv => vok (snd kv)) l.
Proof.
  intros d args l F E. unfold bind_args in E. destruct (bind_params py d (map fst args)) as [ps|]; [|discriminate]. cbn [rbind] in E. eapply rseq_all; [|exact E]. intros [x [k|v]] b Eb; cbn [fst snd] in Eb; [|injection Eb as <-; exact Logic.I].
  destruct (nth_error args k) as [a|] eqn:Na; [|discriminate]. injection Eb as <-. cbn [snd]. rewrite Forall_forall in F. exact (F a (nth_error_In _ _ Na)).
Qed.


(** ** Steps *)
Variable load : bool -> str -> result (cls (fobj bcode) (str * bcode)).
Variable W0 : nat -> list (list bval).
Variable Q0 : nat -> list value.
Definition sok (s : state) : Prop := wok (s_world s) /\ s_with s = W0 /\ s_switch s = Q0.
Definition item_ok (i : item) : Prop :=
  match i with
  | IBlock _ l _ => Forall steady_blk l
  | ILoop _ body rs => Forall steady_blk body /\ Forall (Forall (fun kv : str * bval => vok (snd kv))) rs
  | _ => True
  end.
Definition thok (t : thread) : Prop := match t with Running _ _ todo => Forall item_ok todo | _ => True end.
Definition both (x : thread * state) : Prop := thok (fst x) /\ sok (snd x).
Lemma sok_set : forall s w, sok s -> wok w -> sok (set_world s w).
Proof. intros s w (_ & H2 & H3) W. now split. Qed.
Lemma attempt_ok : forall A (r : result A) s k, sok s -> (forall x, r = Ok x -> both (k x)) -> both (attempt r s k).
Proof. intros A [x|e] s k H K; cbn [attempt]; [now apply K|]. split; [exact Logic.I|exact H]. Qed.
Lemma guarded_ok : forall p g v s r, sok s -> guarded py p g v s = Ok r -> sok (snd r).
Proof.
  intros p [g|] v s r H E; cbn [guarded] in E.
  - destruct (condition py (s_world s) p g) as [[|]|]; try discriminate; cbn [rbind] in E; [destruct v; [|discriminate]; injection E as <-; exact H|injection E as <-; exact H].
  - destruct v; [|discriminate]. injection E as <-. exact H.
Qed.
Lemma show_ok : forall p x s vs, sok s -> show_value py s_world no_invoke p x s = Ok vs -> sok (snd vs).
Proof.
  intros p x s vs H E. unfold show_value in E. assert (V : rmap (fun v => (v, s)) (evalue py (s_world s) p x) = Ok vs -> sok (snd vs)) by (intros X; destruct (evalue py (s_world s) p x); [|discriminate]; injection X as <-; exact H).
  destruct (parse py x) as [y|o k|xs f|c args]; try (now apply V). destruct (find_callee py (s_world s) p c) as [fo|]; [|discriminate]. cbn [rbind] in E. destruct fo as [f|v|v k|b]; try (now apply V).
  destruct (eval_args py (s_world s) p args); [|discriminate]. cbn [rbind] in E. unfold call_function, no_invoke in E. now destruct (bind_args py _ _).
Qed.
Lemma stmt_ok : forall p q s r, steady_stmt q -> sok s -> exec_stmt py load no_invoke p q s = Ok r -> sok (snd r).
Proof.
  intros p q s r Q H E. destruct q; cbn [steady_stmt] in Q; try contradiction; cbn [exec_stmt] in E; try discriminate.
  all: try (injection E as <-; exact H).
  all: try (now apply (guarded_ok _ _ _ _ _ H E)).
  all: try (destruct (instance py (s_world s) p (L "self")); [|discriminate]; cbn [rbind] in E).
  all: try (destruct (show_value py s_world no_invoke p _ s) as [vs|] eqn:V; [|discriminate]; injection E as <-; exact (show_ok _ _ _ _ H V)).
  - destruct (lookup py (s_world s) p _) as [g|]; [|discriminate]. cbn [rbind] in E. destruct g as [[v|d b i ss]|i|t|i|i| | | |]; try discriminate. 
  - destruct (lookup py (s_world s) p _) as [g|]; [|discriminate]. cbn [rbind] in E. destruct g; try discriminate. injection E as <-. exact H.
  - destruct (M_Exec.targets _) as [|x [|y l]]; try discriminate. destruct (M_Exec.is_name x); [|discriminate]. destruct (eval py (s_world s) p _) as [g|] eqn:V; [|discriminate]. injection E as <-. cbn [snd]. apply sok_set; [exact H|]. apply set_name_ok; [apply H|]. eapply eval_ok; [apply H|exact V].
Qed.
Lemma exec_ok : forall p b c s r, steady_blk b -> match b with Bl _ _ => False | _ => True end -> sok s -> exec py load no_invoke p b c s = Ok r -> sok (snd r).
Proof.
  intros p [t g|q|hd body|ls] c s r B Nb H E; cbn [exec] in E; try contradiction.
  - now apply (guarded_ok _ _ _ _ _ H E).
  - now apply (stmt_ok p q s).
  - destruct (run_block py (s_world s) p (python_of py ls)) as [ow|] eqn:R; [|discriminate]. injection E as <-. cbn [snd]. apply sok_set; [exact H|]. eapply block_ok; [apply H|exact R].
Qed.
Definition pok (q : pending) : Prop := cok (c_fun q) /\ Forall (fun kv => vok (snd kv)) (c_params q) /\ sok (c_state q) /\ (forall o, item_ok (c_end q o)).
Lemma named_ok : forall p x s q, sok s -> call_named py p x s = Ok (Some q) -> pok q.
Proof.
  intros p x s q H E. unfold call_named in E. destruct (parse py x) as [y|o k|xs f|c args]; try discriminate. destruct (find_callee py (s_world s) p c) as [fo|] eqn:C; [|discriminate]. cbn [rbind] in E. destruct fo as [f|v|v k|b]; try discriminate.
  destruct (eval_args py (s_world s) p args) as [l|] eqn:Al; [|discriminate]. cbn [rbind] in E. destruct (bind_args py _ l) as [ps|] eqn:B; [|discriminate]. cbn [rmap] in E. assert (q = Pending f ps IShow s) as -> by congruence.
  split; [eapply callee_ok; [apply H|exact C]|]. split; [eapply bind_args_ok; [|exact B]; eapply args_ok; [apply H|exact Al]|]. split; [exact H|]. intros o. exact Logic.I.
Qed.
Lemma call_ok : forall p q s c, steady_stmt q -> sok s -> call_of py load p q s = Ok (Some c) -> pok c.
Proof.
  intros p q s c Q H E. destruct q; cbn [steady_stmt] in Q; try contradiction; cbn [call_of] in E; try discriminate.
  - now apply (named_ok _ _ _ _ H E).
  - destruct (instance py (s_world s) p (L "self")); [|discriminate]. cbn [rbind] in E. now apply (named_ok _ _ _ _ H E).
  - destruct (instance py (s_world s) p (L "self")); [|discriminate]. cbn [rbind] in E. destruct (lookup py (s_world s) p _) as [g|] eqn:Lk; [|discriminate]. cbn [rbind] in E. destruct g as [[v|d b i ss]|i|t|i|i| | | |]; try discriminate. injection E as <-.
    pose proof (lookup_ok _ _ _ _ (proj1 H) Lk) as V. split; [exact V|]. split; [constructor|]. split; [exact H|]. intros o. exact Logic.I.
Qed.
Lemma enter_ok : forall depth out todo q, pok q -> Forall item_ok todo -> both (enter py depth out todo q).
Proof.
  intros depth out todo q (C & P & H & En) F. unfold enter. destruct depth as [|depth]; [now split|]. destruct (c_fun q) as [[[d b] i] ss]. cbn [cok fst snd] in C. split; cbn [fst snd thok].
  - constructor; [exact C|]. constructor; [apply En|exact F].
  - apply sok_set; [exact H|]. destruct H as ((Ew & Fr) & _). split; [exact Ew|]. cbn [w_frames]. apply Forall_app. split; [exact Fr|]. constructor; [|constructor]. intros k g G. cbn [fr_vars] in G. clear - P G.
    induction P as [|[k1 g1] l V P IH]; [discriminate|]. cbn [get] in G. destruct (seqb k k1); [injection G as <-; exact V|now apply IH].
Qed.
Definition dok (s : state) (d : decision) : Prop :=
  match d with Skip _ s' => sok s' | Enter _ => True | Repeat rs => Forall (Forall (fun kv : str * bval => vok (snd kv))) rs end.
Lemma write_ok : forall x (l : list str), Forall (Forall (fun kv : str * bval => vok (snd kv))) (map (fun t => [(x, val (VStr t))]) l).
Proof. intros x l. apply Forall_map. apply Forall_forall. intros t _. constructor; [exact Logic.I|constructor]. Qed.
Lemma decide_ok : forall p hd code c s d, Forall steady_blk code -> sok s -> decide py p hd code c s = Ok d -> dok s d.
Proof.
  intros p hd code c s d C H E. assert (D : forall x y d, Ok (Skip M_Exec.CNone (set_world s (set_name (s_world s) p x (GObj _ _ (RC y code (p_inst p) (p_scopes p)))))) = Ok d -> dok s d).
  { intros x y d0 X. injection X as <-. cbn [dok]. apply sok_set; [exact H|]. apply set_name_ok; [apply H|exact C]. }
  destruct hd; cbn [decide] in E; try discriminate; try (now apply D in E).
  - destruct (instance py (s_world s) p (L "self")); [|discriminate]. cbn [rbind] in E. destruct (lookup py (s_world s) p _); [|discriminate]. cbn [rbind] in E. destruct (render_attrs _ _); [|discriminate]. injection E as <-. apply write_ok.
  - destruct (instance py (s_world s) p (L "self")); [|discriminate]. cbn [rbind] in E. destruct (attributes py (s_world s) p _); [|discriminate]. cbn [rbind] in E. destruct (render_attrs _ _); [|discriminate]. injection E as <-. apply write_ok.
  - destruct (rounds py (s_world s) p _) as [l|] eqn:R; [|discriminate]. injection E as <-. exact (rounds_ok _ _ _ _ R).
  - destruct (condition py (s_world s) p _) as [[|]|]; try discriminate; injection E as <-; [exact Logic.I|exact H].
  - destruct c as [|[|]|]; try discriminate; [injection E as <-; exact H|]. destruct (instance py (s_world s) p (L "local")); [|discriminate]. cbn [rbind] in E. destruct (evalue py (s_world s) p _) as [v|]; [|discriminate]. cbn [rbind] in E. destruct (s_switch s _) as [|x l]; [discriminate|].
    destruct (veq py v x); injection E as <-; [exact Logic.I|exact H].
  - destruct c as [|[|]|]; try discriminate; injection E as <-; [exact H|exact Logic.I|exact Logic.I].
Qed.
Lemma step_ok : forall t s, thok t -> sok s -> both (step py load t s).
Proof.
  intros [depth out todo|o|e] s T H; [|now split|now split]. cbn [thok] in T. destruct todo as [|i todo]; [now split|]. apply Forall_cons_iff in T as [Ti T]. destruct i as [p l c|p body rs|b|b p n]; cbn [item_ok] in Ti.
  - destruct l as [|b l]; [now split|]. apply Forall_cons_iff in Ti as [B F]. cbn [step].
    assert (SI : match b with Bl _ _ => False | _ => True end -> both (attempt (exec py load no_invoke p b c s) s (fun r => (Running depth (out ++ fst (fst r)) (IBlock p l (snd (fst r)) :: todo), snd r)))).
    { intros Nb. apply attempt_ok; [exact H|]. intros r E. split; [cbn [fst thok]; constructor; [exact F|exact T]|]. cbn [snd]. now apply (exec_ok p b c s). }
    destruct b as [tx g|q|hd body|ls]; try (apply SI; exact Logic.I).
    + apply attempt_ok; [exact H|]. intros [q1|] E; [|apply SI; exact Logic.I]. apply enter_ok; [now apply (call_ok p q s)|]. constructor; [exact F|exact T].
    + cbn [steady_blk] in B. apply steady_body in B. apply attempt_ok; [exact H|]. intros d E. pose proof (decide_ok _ _ _ _ _ _ B H E) as D. destruct d as [c' s'|c'|rs]; cbn [dok] in D; split; cbn [fst snd thok]; try assumption; repeat (constructor; try assumption).
  - destruct rs as [|r rs]; [now split|]. destruct Ti as [B R]. apply Forall_cons_iff in R as [R1 R2]. cbn [step]. split; cbn [fst snd thok]; [constructor; [exact B|constructor; [split; assumption|exact T]]|]. apply sok_set; [exact H|]. apply set_names_ok; [apply H|exact R1].
  - now split.
  - cbn [step]. apply attempt_ok; [exact H|]. intros v E. split; cbn [fst snd thok]; [exact T|]. apply sok_set; [exact H|]. apply set_name_ok; [apply H|exact Logic.I].
Qed.
End Steady.
