(** * Proofs: what iterations leave behind (2): every step keeps the object as it is, and its values readable *)

From Coq Require Import Ascii String List Arith NArith ZArith Bool Lia.
From Verif Require Import PyStr PyStrLemmas M_Values M_IR S_IR M_Template P_Template P_Deep M_Run S_Run S_Again S_After P_Run1 P_Run3 P_Run5 P_Run6 P_Run11 P_Shift M_Conc M_Same P_After.
From Verif Require M_Exec.
Import ListNotations.
Open Scope list_scope.

Section After.
Variable py : python.
Variable gen : str -> Prop.
Variable h : heap (fobj bcode) (str * bcode).
Hypothesis Hgen : generated_names py gen.
Notation good := (good py gen).
Notation n := (length h).
Notation rgv := (rgv bcode dcode (rfun py gen)).
Notation rf := (rfun py gen).

(** ** Values that can be read *)
Definition fok (t : tplfun (str * bcode)) : Prop := match f_code _ t with Code _ c => Forall good (snd c) /\ read_fun py gen c | Trampoline _ _ => True end /\ f_inst _ t < n.
Definition vok (m : nat) (g : bval) : Prop :=
  match g with
  | GObj _ _ (RC d b i ss) => Forall good b /\ read_fun py gen (d, b) /\ i < n /\ Forall (fun f => f < m) ss
  | GFun _ _ t => fok t
  | GInst _ _ i => i < n
  | _ => True
  end.
Lemma vok_mono : forall m m' g, m <= m' -> vok m g -> vok m' g.
Proof. intros m m' [[v|d b i ss]|i|t|i|i| | | |] Le V; try exact V. destruct V as (V1 & V2 & V3 & V4). split; [exact V1|]. split; [exact V2|]. split; [exact V3|]. eapply Forall_impl; [|exact V4]. cbn. intros a Ha. lia. Qed.
Lemma vok_read : forall m g, vok m g -> exists g', rgv n m g g'.
Proof.
  intros m [[v|d b i ss]|i|[[c|k] i]|i|i| | | |] V; cbn [vok] in V.
  - exists (val v). constructor.
  - destruct V as (_ & [ss' R] & I1 & F). exists (GObj _ _ (RC d ss' i ss)). now constructor.
  - exists (GInst _ _ i). now constructor.
  - destruct V as [[_ [ss R]] I1]. exists (GFun _ _ (TplFunc _ (Code _ (fst c, ss)) i)). constructor. split; [exact R|]. now split.
  - destruct V as [_ I1]. exists (GFun _ _ (TplFunc _ (Trampoline _ k) i)). constructor. split; [reflexivity|]. now split.
  - exists (GDefined _ _ i). constructor.
  - exists (GValueOf _ _ i). constructor.
  - exists (GLiteral _ _). constructor.
  - exists (GGettext _ _). constructor.
  - exists (GBuiltins _ _). constructor.
  - exists (GKajiki _ _). constructor.
Qed.
Hypothesis Hglobals : forall i k g, get k (globals _ _ h i) = Some g -> vok 0 g.
Hypothesis Hattrs : forall i k t, get k (attrs _ _ h i) = Some t -> fok t.
Notation entries m := (Forall (fun kv : str * bval => vok m (snd kv))).
Definition frame_ok (m : nat) (fr : frame bcode) : Prop := entries m (fr_vars fr) /\ (forall r, In r reserved -> smem r (fr_names fr) = false).
Notation size w := (length (w_frames w)).
Definition wok (w : world bcode) : Prop := w_heap w = h /\ Forall (frame_ok (size w)) (w_frames w).
Definition cok (m : nat) (c : callable bcode) : Prop := let '(d, b, i, ss) := c in Forall good b /\ read_fun py gen (d, b) /\ i < n /\ Forall (fun f => f < m) ss.
Definition plok (m : nat) (p : place) : Prop := p_inst p < n /\ Forall (fun f => f < m) (p_scopes p).

Lemma frames_read : forall fs m, Forall (frame_ok m) fs -> exists fs', Forall2 (rframe bcode dcode rf gen n m) fs fs'.
Proof.
  intros fs m F. induction F as [|fr fs [H1 H2] F [fs' IH]]; [exists []; constructor|].
  assert (E : exists vs, ralist (rgv n m) (fr_vars fr) vs).
  { clear - H1. induction H1 as [|[k g] l V H IH]; [exists []; constructor|]. destruct IH as [vs IH], (vok_read m g V) as [g' R]. exists ((k, g') :: vs). constructor; [now split|exact IH]. }
  destruct E as [vs E]. exists (Frame (fr_names fr) vs :: fs'). constructor; [|exact IH]. split; [intros x _; reflexivity|]. split; [|exact H2]. intros x _. cbn [fr_vars].
  clear - E. induction E as [|[k g] [k' g'] l l' [Ek R] E IH]; [exact Logic.I|]. cbn [fst snd get] in *. subst k'. destruct (seqb x k); [exact R|exact IH].
Qed.
Lemma get_entry : forall m k l g, entries m l -> get k l = Some g -> vok m g.
Proof. intros m k l g F E. induction F as [|[k' g'] l V F IH]; [discriminate|]. cbn [get] in E. destruct (seqb k k'); [injection E as <-; exact V|now apply IH]. Qed.
Lemma set_entry : forall m k g l, vok m g -> entries m l -> entries m (set k g l).
Proof. intros m k g l V F. induction F as [|[k' g'] l V' F IH]; cbn [set]; [constructor; [exact V|constructor]|]. destruct (seqb k k'); constructor; assumption. Qed.
Lemma put_length : forall fs i (fr : frame bcode), length (put_frame fs i fr) = length fs.
Proof. induction fs as [|x fs IH]; intros [|i] fr; cbn [put_frame length]; congruence. Qed.
Lemma set_name_size : forall (w : world bcode) p x g, size (set_name w p x g) = size w.
Proof. intros w p x g. unfold set_name. destruct (p_scopes p) as [|f ss]; [reflexivity|]. destruct (nth_error (w_frames w) f); [|reflexivity]. apply put_length. Qed.
Lemma set_names_size : forall p l (w : world bcode), size (set_names w p l) = size w.
Proof. intros p l. induction l as [|[x g] l IH]; intros w; [reflexivity|]. cbn [set_names]. now rewrite IH, set_name_size. Qed.
Lemma find_ok : forall fs m x scopes err g, Forall (frame_ok m) fs -> find_name fs err scopes x = Some (Ok g) -> vok m g.
Proof.
  intros fs m x scopes. induction scopes as [|f scopes IH]; intros err g F E; [discriminate|]. cbn [find_name] in E. destruct (nth_error fs f) as [fr|] eqn:Nf; [|now apply (IH _ g F E)]. destruct (smem x (fr_names fr)); [|now apply (IH _ g F E)].
  rewrite Forall_forall in F. destruct (F fr (nth_error_In _ _ Nf)) as [Fr _]. destruct (get x (fr_vars fr)) as [g'|] eqn:G; [|discriminate]. injection E as <-. exact (get_entry m x _ g' Fr G).
Qed.
Lemma lookup_ok : forall w p x g, wok w -> lookup py w p x = Ok g -> vok (size w) g.
Proof.
  intros w p x g [Ew F] E. unfold lookup in E. destruct (find_name (w_frames w) "UnboundLocalError" (p_scopes p) x) as [r|] eqn:Fn; [subst r; now apply (find_ok _ _ _ _ _ _ F Fn)|]. rewrite Ew in E. unfold resolve in E.
  destruct (get x (globals _ _ h (p_inst p))) as [g'|] eqn:G; [injection E as <-; apply (vok_mono 0); [lia|now apply (Hglobals _ _ _ G)]|]. destruct (builtin_value py x); [|discriminate]. cbn in E. injection E as <-. exact Logic.I.
Qed.
Lemma put_frame_ok : forall m fs i fr, Forall (frame_ok m) fs -> frame_ok m fr -> Forall (frame_ok m) (put_frame fs i fr).
Proof. intros m fs i fr F. revert i. induction F as [|x fs Hx F IH]; intros [|i] Hf; cbn [put_frame]; constructor; try assumption. now apply IH. Qed.
Lemma set_name_ok : forall w p x g, wok w -> vok (size w) g -> wok (set_name w p x g).
Proof.
  intros w p x g [Ew F] V. split; [now rewrite set_name_heap|]. rewrite set_name_size. unfold set_name. destruct (p_scopes p) as [|f ss]; [exact F|]. destruct (nth_error (w_frames w) f) as [fr|] eqn:Nf; [|exact F]. cbn [w_frames]. apply put_frame_ok; [exact F|].
  rewrite Forall_forall in F. destruct (F fr (nth_error_In _ _ Nf)) as [F1 F2]. split; [|exact F2]. cbn [fr_vars]. now apply set_entry.
Qed.
Lemma set_names_ok : forall p l w, wok w -> entries (size w) l -> wok (set_names w p l).
Proof. intros p l. induction l as [|[x g] l IH]; intros w W F; [exact W|]. apply Forall_cons_iff in F as [F1 F2]. cbn [set_names]. apply IH; [now apply set_name_ok|]. now rewrite set_name_size. Qed.
Lemma local_ok : forall w p x g, wok w -> local_value w p x = Some g -> vok (size w) g.
Proof.
  intros w p x g [Ew F] E. unfold local_value in E. destruct (p_scopes p) as [|f ss]; [discriminate|]. destruct (nth_error (w_frames w) f) as [fr|] eqn:Nf; [|discriminate]. rewrite Forall_forall in F. destruct (F fr (nth_error_In _ _ Nf)) as [F1 _]. exact (get_entry _ _ _ _ F1 E).
Qed.
Lemma arg_ok : forall w p a g, wok w -> eval_arg py w p a = Ok g -> vok (size w) g.
Proof. intros w p [x|xs f] g W E; cbn [eval_arg] in E; [now apply (lookup_ok w p x)|]. destruct (f (reads py w p xs)); [|discriminate]. injection E as <-. exact Logic.I. Qed.
Notation given m := (Forall (fun kg : option str * bval => vok m (snd kg))).
Lemma args_ok : forall w p l r, wok w -> eval_args py w p l = Ok r -> given (size w) r.
Proof.
  intros w p l. induction l as [|[k a] l IH]; intros r W E; cbn [eval_args] in E; [injection E as <-; constructor|]. destruct (eval_arg py w p a) as [g|] eqn:A; [|discriminate]. cbn [rbind] in E. destruct (eval_args py w p l) as [r'|]; [|discriminate]. injection E as <-.
  constructor; [now apply (arg_ok w p a)|now apply IH].
Qed.
Lemma target_ok : forall fuel t c i, fok t -> target _ _ (fun k => option_map val (builtin_value py k)) fuel h t = Ok (c, i) -> Forall good (snd c) /\ read_fun py gen c /\ i < n.
Proof.
  induction fuel as [|fuel IH]; intros [[c0|k] j] c i T E; cbn [target f_code f_inst] in E; try discriminate; try (injection E as <- <-; destruct T as [[T1 T2] T3]; now repeat split).
  destruct (resolve _ _ _ h j (L "parent")) as [g|]; [|discriminate]. cbn [rbind] in E. destruct (as_instance _ _ h g) as [q|]; [|discriminate]. cbn [rbind] in E. unfold getattr in E. destruct (get k (attrs _ _ h q)) as [t|] eqn:G; [|discriminate]. cbn [rbind] in E. apply (IH t c i); [now apply (Hattrs q k)|exact E].
Qed.
Lemma callable_ok : forall m t c, fok t -> tpl_callable py h t = Ok c -> cok m c.
Proof.
  intros m t c T E. unfold tpl_callable in E. destruct (target _ _ _ (S (length h)) h t) as [[[d b] i]|] eqn:X; [|discriminate]. cbn in E. injection E as <-. destruct (target_ok _ _ _ _ T X) as (T1 & T2 & T3). split; [exact T1|]. split; [exact T2|]. split; [exact T3|constructor].
Qed.
Lemma method_ok : forall i k t, method h i k = Ok t -> fok t.
Proof. intros i k t E. unfold method, getattr in E. destruct (get k (attrs _ _ h i)) as [t'|] eqn:G; [injection E as <-; now apply (Hattrs i k)|]. destruct (smem k template_attributes) in E; discriminate E. Qed.
Lemma callee_ok : forall w p c f, wok w -> find_callee py w p c = Ok (FTemplate f) -> cok (size w) f.
Proof.
  intros w p [x|o k] f W E; cbn [find_callee] in E; pose proof W as [Ew _].
  - destruct (lookup py w p x) as [g|] eqn:X; [|discriminate]. pose proof (lookup_ok _ _ _ _ W X) as V. cbn [rbind] in E. destruct g as [[v|d b i ss]|i|t|i|i| | | |]; try discriminate.
    + injection E as <-. exact V.
    + rewrite Ew in E. destruct (tpl_callable py h t) as [c|] eqn:T; [|discriminate]. injection E as <-. now apply (callable_ok _ t).
  - destruct (lookup py w p o) as [g|] eqn:X; [|discriminate]. cbn [rbind] in E. destruct g as [[v|d b i ss]|i|t|i|i| | | |]; try discriminate. rewrite Ew in E.
    destruct (method h i k) as [t|] eqn:Mt; [|discriminate]. cbn [rbind] in E. destruct (tpl_callable py h t) as [c|] eqn:T; [|discriminate]. injection E as <-. apply (callable_ok _ t); [now apply (method_ok i k)|exact T].
Qed.
Lemma eval_ok : forall w p e g, wok w -> eval py w p e = Ok g -> vok (size w) g.
Proof.
  intros w p e g W E. destruct e as [x|o k|xs f|c args]; cbn [eval] in E.
  - now apply (lookup_ok w p x).
  - destruct (lookup py w p o) as [g'|]; [|discriminate]. cbn [rbind] in E. destruct g' as [[v|d b i ss]|i|t|i|i| | | |]; try discriminate.
    + destruct (value_attr py v k); [|discriminate]. injection E as <-. exact Logic.I.
    + rewrite (proj1 W) in E. destruct (method h i k) as [t|] eqn:Mt; [|discriminate]. injection E as <-. exact (method_ok _ _ _ Mt).
  - destruct (f (reads py w p xs)); [|discriminate]. injection E as <-. exact Logic.I.
  - destruct (find_callee py w p c) as [fo|]; [|discriminate]. cbn [rbind] in E. destruct (eval_args py w p args) as [l|]; [|discriminate]. cbn [rbind] in E. destruct fo as [f|v|v k|b]; [discriminate|..];
    match type of E with rmap _ ?r = _ => destruct r end; try discriminate; injection E as <-; exact Logic.I.
Qed.
Lemma rseq_all : forall A B (P : B -> Prop) (f : A -> result B) l r, (forall a b, f a = Ok b -> P b) -> rseq (map f l) = Ok r -> Forall P r.
Proof.
  intros A B P f l. induction l as [|a l IH]; intros r H E; cbn [map rseq] in E; [injection E as <-; constructor|]. destruct (f a) as [b|] eqn:Fa; [|discriminate]. cbn [rbind] in E. destruct (rseq (map f l)) as [r'|]; [|discriminate]. injection E as <-. constructor; [now apply (H a)|now apply IH].
Qed.
Lemma combine_ok : forall m (xs : list str) vs, entries m (combine xs (map (@val bcode) vs)).
Proof. intros m. induction xs as [|x xs IH]; intros [|v vs]; try exact (Forall_nil _). cbn [combine map]. constructor; [exact Logic.I|apply IH]. Qed.
Lemma rounds_ok : forall m w p d l, rounds py w p d = Ok l -> Forall (entries m) l.
Proof.
  intros m w p d l E. unfold rounds in E. destruct (parse_for py d) as [xs e]. destruct (eval py w p e) as [g|]; [|discriminate]. cbn [rbind] in E. destruct (iterate py (as_value g)) as [items|]; [|discriminate]. cbn [rbind] in E.
  eapply rseq_all; [|exact E]. intros v b Eb.
  assert (U : forall ys : list str, rbind (unpack py v) (fun vs => if Nat.eqb (length vs) (length ys) then Ok (combine ys (map (@val bcode) vs)) else Raise "ValueError") = Ok b -> entries m b).
  { intros ys X. destruct (unpack py v) as [vs|]; [|discriminate]. cbn [rbind] in X. destruct (Nat.eqb (length vs) (length ys)); [|discriminate]. injection X as <-. apply combine_ok. }
  destruct xs as [|x [|x2 xs]]; [now apply (U [])| |now apply (U (x :: x2 :: xs))]. injection Eb as <-. constructor; [exact Logic.I|constructor].
Qed.
Lemma bind_some_ok : forall p xs vs w, wok w -> wok (bind_some w p xs vs) /\ size (bind_some w p xs vs) = size w.
Proof.
  intros p xs. induction xs as [|x xs IH]; intros [|[v|] vs] w W; try (split; [exact W|reflexivity]); cbn [bind_some]; [|now apply IH].
  destruct (IH vs (set_name w p x (val v))) as [I1 I2]; [apply set_name_ok; [exact W|exact Logic.I]|]. split; [exact I1|]. now rewrite I2, set_name_size.
Qed.
Lemma block_ok : forall p l w ow, wok w -> run_block py w p l = Ok ow -> wok (snd ow) /\ size (snd ow) = size w.
Proof.
  intros p l. induction l as [|[x e|xs ys f] l IH]; intros w ow W E; cbn [run_block] in E; [injection E as <-; split; [exact W|reflexivity]| |].
  - destruct (eval py w p e) as [g|] eqn:X; [|discriminate]. cbn [rbind] in E. destruct (IH (set_name w p x g) ow) as [I1 I2]; [|exact E|split; [exact I1|now rewrite I2, set_name_size]]. apply set_name_ok; [exact W|]. now apply (eval_ok w p e).
  - destruct (f (reads py w p xs)) as [[o vs]|]; [|discriminate]. cbn [rbind fst snd] in E. destruct (run_block py (bind_some w p ys vs) p l) as [[o' w']|] eqn:R; [|discriminate]. injection E as <-. cbn [snd].
    destruct (bind_some_ok p ys vs w W) as [B1 B2]. destruct (IH _ _ B1 R) as [I1 I2]. cbn [snd] in *. split; [exact I1|]. now rewrite I2.
Qed.
Lemma bind_args_ok : forall m d args l, given m args -> bind_args py d args = Ok l -> entries m l.
Proof.
  intros m d args l F E. unfold bind_args in E. destruct (bind_params py d (map fst args)) as [ps|]; [|discriminate]. cbn [rbind] in E. eapply rseq_all; [|exact E]. intros [x [k|v]] b Eb; cbn [fst snd] in Eb; [|injection Eb as <-; exact Logic.I].
  destruct (nth_error args k) as [a|] eqn:Na; [|discriminate]. injection Eb as <-. cbn [snd]. rewrite Forall_forall in F. exact (F a (nth_error_In _ _ Na)).
Qed.
Lemma bind_args_names : forall d args (l : list (str * bval)), a_decl py gen d -> bind_args py d args = Ok l -> forall r, In r reserved -> ~ In r (map fst l).
Proof.
  intros d args l [_ D] E r Hr I1. unfold bind_args in E. destruct (bind_params py d (map fst args)) as [ps|] eqn:B; [|discriminate]. cbn [rbind] in E. specialize (D _ _ B).
  assert (M : map fst l = map fst ps).
  { clear - E. revert l E. induction ps as [|[x a] ps IH]; intros l E; cbn [map rseq] in E; [injection E as <-; reflexivity|]. destruct a as [k|v]; cbn [fst snd] in E.
    - destruct (nth_error args k); [|discriminate]. cbn [rbind] in E. destruct (rseq _) as [l'|] eqn:R; [|discriminate]. injection E as <-. cbn [map fst]. f_equal. now apply IH.
    - cbn [rbind] in E. destruct (rseq _) as [l'|] eqn:R; [|discriminate]. injection E as <-. cbn [map fst]. f_equal. now apply IH. }
  rewrite M in I1. apply in_map_iff in I1 as (xa & <- & I1). rewrite Forall_forall in D. now apply (D xa I1).
Qed.

(** ** Steps *)
Variable load : bool -> str -> result (cls (fobj bcode) (str * bcode)).
Notation fsize s := (length (w_frames (s_world s))).
Definition stacks_ok (m : nat) (s : state) : Prop := forall i, Forall (Forall (vok m)) (s_with s i).
Definition sok (s : state) : Prop := wok (s_world s) /\ stacks_ok (fsize s) s.
Definition item_ok (m : nat) (i : item) : Prop :=
  match i with
  | IBlock p l _ => plok m p /\ Forall good l
  | ILoop p body rs => plok m p /\ Forall good body /\ Forall (entries m) rs
  | _ => True
  end.
Definition thok (m : nat) (t : thread) : Prop := match t with Running _ _ todo => Forall (item_ok m) todo | _ => True end.
Definition both (m : nat) (x : thread * state) : Prop := m <= fsize (snd x) /\ thok (fsize (snd x)) (fst x) /\ sok (snd x).
Lemma entries_mono : forall m m' l, m <= m' -> entries m l -> entries m' l.
Proof. intros m m' l Le F. eapply Forall_impl; [|exact F]. intros kv. now apply vok_mono. Qed.
Lemma plok_mono : forall m m' p, m <= m' -> plok m p -> plok m' p.
Proof. intros m m' p Le [H1 H2]. split; [exact H1|]. eapply Forall_impl; [|exact H2]. cbn. intros a Ha. lia. Qed.
Lemma item_mono : forall m m' i, m <= m' -> item_ok m i -> item_ok m' i.
Proof.
  intros m m' [p l c|p body rs|b|b p x] Le H; cbn [item_ok] in *; try exact Logic.I.
  - destruct H as [H1 H2]. split; [now apply (plok_mono m)|exact H2].
  - destruct H as (H1 & H2 & H3). split; [now apply (plok_mono m)|]. split; [exact H2|]. eapply Forall_impl; [|exact H3]. intros l. now apply entries_mono.
Qed.
Lemma items_mono : forall m m' l, m <= m' -> Forall (item_ok m) l -> Forall (item_ok m') l.
Proof. intros m m' l Le F. eapply Forall_impl; [|exact F]. intros i. now apply item_mono. Qed.
Lemma thok_mono : forall m m' t, m <= m' -> thok m t -> thok m' t.
Proof. intros m m' [d o l|o|e] Le H; try exact Logic.I. cbn [thok] in *. now apply (items_mono m). Qed.
Lemma frame_mono : forall m m' fr, m <= m' -> frame_ok m fr -> frame_ok m' fr.
Proof. intros m m' fr Le [F1 F2]. split; [now apply (entries_mono m)|exact F2]. Qed.
(** The same variables, possibly other values. *)
Definition kept (s s' : state) : Prop := sok s' /\ fsize s' = fsize s.
Lemma kept_refl : forall s, sok s -> kept s s.
Proof. intros s H. now split. Qed.
Lemma kept_set : forall s w, sok s -> wok w -> size w = fsize s -> kept s (set_world s w).
Proof. intros s w [_ H] W E. split; [split; [exact W|]|exact E]. cbn [set_world s_world]. rewrite E. exact H. Qed.
Lemma kept_name : forall s p x g, sok s -> vok (fsize s) g -> kept s (set_world s (set_name (s_world s) p x g)).
Proof. intros s p x g H V. apply kept_set; [exact H|apply set_name_ok; [apply H|exact V]|apply set_name_size]. Qed.
Lemma kept_with : forall s s' i l, kept s s' -> Forall (Forall (vok (fsize s))) l -> kept s (with_with s' i l).
Proof. intros s s' i l [[W K] E] F. split; [split; [exact W|]|exact E]. cbn [with_with s_world]. intros j. cbn [with_with s_with upd]. unfold upd. destruct (Nat.eqb j i); [now rewrite E|apply K]. Qed.
Lemma kept_switch : forall s i l, sok s -> kept s (with_switch s i l).
Proof. intros s i l [W K]. split; [split; [exact W|exact K]|reflexivity]. Qed.
Lemma attempt_ok : forall A (r : result A) m s k, sok s -> m <= fsize s -> (forall x, r = Ok x -> both m (k x)) -> both m (attempt r s k).
Proof. intros A [x|e] m s k H Le K; cbn [attempt]; [now apply K|]. split; [exact Le|]. split; [exact Logic.I|exact H]. Qed.
Lemma guarded_ok : forall p g v s r, sok s -> guarded py p g v s = Ok r -> kept s (snd r).
Proof.
  intros p [g|] v s r H E; cbn [guarded] in E.
  - destruct (condition py (s_world s) p g) as [[|]|]; try discriminate; cbn [rbind] in E; [destruct v; [|discriminate]; injection E as <-; now apply kept_refl|injection E as <-; now apply kept_refl].
  - destruct v; [|discriminate]. injection E as <-. now apply kept_refl.
Qed.
Lemma show_ok : forall p x s vs, sok s -> show_value py s_world no_invoke p x s = Ok vs -> kept s (snd vs).
Proof.
  intros p x s vs H E. unfold show_value in E. assert (V : rmap (fun v => (v, s)) (evalue py (s_world s) p x) = Ok vs -> kept s (snd vs)) by (intros X; destruct (evalue py (s_world s) p x); [|discriminate]; injection X as <-; now apply kept_refl).
  destruct (parse py x) as [y|o k|xs f|c args]; try (now apply V). destruct (find_callee py (s_world s) p c) as [fo|]; [|discriminate]. cbn [rbind] in E. destruct fo as [f|v|v k|b]; try (now apply V).
  destruct (eval_args py (s_world s) p args); [|discriminate]. cbn [rbind] in E. unfold call_function, no_invoke in E. now destruct (bind_args py _ _).
Qed.
Lemma saved_ok : forall m xs l, Forall (vok m) l -> entries m (combine xs l).
Proof. intros m xs l F. revert xs. induction F as [|g l V F IH]; intros [|x xs]; cbn [combine]; constructor; [exact V|apply IH]. Qed.
Lemma stmt_ok : forall p q s r, alone_stmt q -> sok s -> exec_stmt py load no_invoke p q s = Ok r -> kept s (snd r).
Proof.
  intros p q s r Q H E. destruct q; cbn [alone_stmt] in Q; try contradiction; cbn [exec_stmt] in E; try discriminate.
  all: try (injection E as <-; now apply kept_refl).
  all: try (now apply (guarded_ok _ _ _ _ _ H E)).
  all: try (destruct (instance py (s_world s) p (L "self")); [|discriminate]; cbn [rbind] in E).
  all: try (destruct (show_value py s_world no_invoke p _ s) as [vs|] eqn:V; [|discriminate]; injection E as <-; exact (show_ok _ _ _ _ H V)).
  all: try (destruct (instance py (s_world s) p (L "local")) as [i0|]; [|discriminate]; cbn [rbind rmap] in E).
  - destruct (lookup py (s_world s) p _) as [g|]; [|discriminate]. cbn [rbind] in E. destruct g as [[v|d b i ss]|i|t|i|i| | | |]; discriminate.
  - destruct (lookup py (s_world s) p _) as [g|]; [|discriminate]. cbn [rbind] in E. destruct g; try discriminate. injection E as <-. now apply kept_refl.
  - injection E as <-. cbn [snd]. apply kept_with; [now apply kept_refl|]. constructor; [|apply H]. apply Forall_map. apply Forall_forall. intros x _. destruct (local_value (s_world s) p x) as [g|] eqn:Lv; [|exact Logic.I]. eapply local_ok; [apply H|exact Lv].
  - destruct (M_Exec.targets _) as [|x [|y l]]; try discriminate. destruct (M_Exec.is_name x); [|discriminate]. destruct (eval py (s_world s) p _) as [g|] eqn:V; [|discriminate]. injection E as <-. cbn [snd]. apply kept_name; [exact H|]. eapply eval_ok; [apply H|exact V].
  - destruct (s_with s i0) as [|saved rest] eqn:Sw; [discriminate|]. destruct (negb _); [discriminate|]. destruct (Nat.eqb _ _); [|discriminate]. injection E as <-. cbn [snd]. pose proof (proj2 H i0) as K. rewrite Sw in K. apply Forall_cons_iff in K as [K1 K2].
    apply kept_with; [|exact K2]. apply kept_set; [exact H|apply set_names_ok; [apply H|now apply saved_ok]|apply set_names_size].
  - destruct (evalue py (s_world s) p _) as [v|]; [|discriminate]. injection E as <-. now apply kept_switch.
  - destruct (s_switch s i0) as [|v rest]; [discriminate|]. injection E as <-. now apply kept_switch.
Qed.
Lemma exec_ok : forall p b c s r, good b -> match b with Bl _ _ => False | _ => True end -> sok s -> exec py load no_invoke p b c s = Ok r -> kept s (snd r).
Proof.
  intros p [t g|q|hd body|ls] c s r B Nb H E; cbn [exec] in E; try contradiction.
  - now apply (guarded_ok _ _ _ _ _ H E).
  - now apply (stmt_ok p q s).
  - destruct (run_block py (s_world s) p (python_of py ls)) as [ow|] eqn:R; [|discriminate]. injection E as <-. cbn [snd]. destruct (block_ok _ _ _ _ (proj1 H) R) as [W Es]. now apply kept_set.
Qed.
Definition pok (m : nat) (q : pending) : Prop :=
  cok m (c_fun q) /\ entries m (c_params q) /\ (forall r, In r reserved -> ~ In r (map fst (c_params q))) /\ sok (c_state q) /\ fsize (c_state q) = m /\ (forall o m', item_ok m' (c_end q o)).
Lemma named_ok : forall p x s q, sok s -> call_named py p x s = Ok (Some q) -> pok (fsize s) q.
Proof.
  intros p x s q H E. unfold call_named in E. destruct (parse py x) as [y|o k|xs f|c args]; try discriminate. destruct (find_callee py (s_world s) p c) as [fo|] eqn:C; [|discriminate]. cbn [rbind] in E. destruct fo as [f|v|v k|b]; try discriminate.
  destruct (eval_args py (s_world s) p args) as [l|] eqn:Al; [|discriminate]. cbn [rbind] in E. destruct (bind_args py _ l) as [ps|] eqn:B; [|discriminate]. cbn [rmap] in E. assert (q = Pending f ps IShow s) as -> by congruence.
  pose proof (callee_ok _ _ _ _ (proj1 H) C) as V. split; [exact V|]. cbn [c_params c_state c_end]. split; [eapply bind_args_ok; [|exact B]; eapply args_ok; [apply H|exact Al]|].
  split; [|split; [exact H|split; [reflexivity|intros o m'; exact Logic.I]]]. destruct f as [[[d b] i] ss]. destruct V as (_ & [ss' (_ & D & _)] & _). cbn [fst snd] in *. now apply (bind_args_names d l ps).
Qed.
Lemma call_ok : forall p q s c, alone_stmt q -> sok s -> call_of py load p q s = Ok (Some c) -> pok (fsize s) c.
Proof.
  intros p q s c Q H E. destruct q; cbn [alone_stmt] in Q; try contradiction; cbn [call_of] in E; try discriminate.
  - now apply (named_ok _ _ _ _ H E).
  - destruct (instance py (s_world s) p (L "self")); [|discriminate]. cbn [rbind] in E. now apply (named_ok _ _ _ _ H E).
  - destruct (instance py (s_world s) p (L "self")); [|discriminate]. cbn [rbind] in E. destruct (lookup py (s_world s) p _) as [g|] eqn:Lk; [|discriminate]. cbn [rbind] in E. destruct g as [[v|d b i ss]|i|t|i|i| | | |]; try discriminate. injection E as <-.
    pose proof (lookup_ok _ _ _ _ (proj1 H) Lk) as V. split; [exact V|]. split; [constructor|]. split; [intros r _ []|]. split; [exact H|]. split; [reflexivity|]. intros o m'. exact Logic.I.
Qed.
Lemma enter_ok : forall m depth out todo q, pok m q -> Forall (item_ok m) todo -> both m (enter py depth out todo q).
Proof.
  intros m depth out todo q (C & P & Nr & H & Em & En) F. unfold enter. destruct depth as [|depth]; [cbn [both]; split; [cbn [snd]; lia|now split]|]. destruct (c_fun q) as [[[d b] i] ss]. cbn [cok] in C. destruct C as (G & [ss' R] & I1 & Sc).
  assert (Ln : length (w_frames (s_world (c_state q)) ++ [Frame (map fst (c_params q) ++ all_names py b) (c_params q)]) = S m) by (rewrite app_length; cbn [length]; lia).
  split; cbn [fst snd thok set_world s_world w_frames]; [rewrite Ln; lia|]. split.
  - rewrite Ln. constructor; [split; [split; [exact I1|]|exact G]|]; [|constructor; [apply En|apply (items_mono m); [lia|exact F]]]. cbn [p_scopes]. constructor; [lia|]. eapply Forall_impl; [|exact Sc]. cbn. intros a Ha. lia.
  - destruct H as [[Ew Fr] K]. split; [split; [exact Ew|]|].
    + cbn [set_world s_world w_frames]. rewrite Ln. apply Forall_app. split; [eapply Forall_impl; [|exact Fr]; intros fr; apply frame_mono; lia|]. constructor; [|constructor]. split; [cbn [fr_vars]; now apply (entries_mono m); [lia|]|].
      intros r Hr. cbn [fr_names]. destruct (smem r _) eqn:Sm; [|reflexivity]. apply smem_In in Sm. apply in_app_or in Sm as [X|X]; [now destruct (Nr r Hr)|]. destruct R as (_ & _ & Rb). cbn [snd] in Rb. destruct (rbody_names py gen Hgen _ _ Rb r) as [A _]. now destruct (A X).
    + intros j. cbn [set_world s_world w_frames s_with]. rewrite Ln. eapply Forall_impl; [|exact (K j)]. intros l Fl. eapply Forall_impl; [|exact Fl]. intros g. apply vok_mono. lia.
Qed.
Definition dok (s : state) (d : decision) : Prop :=
  match d with Skip _ s' => kept s s' | Enter _ => True | Repeat rs => Forall (entries (fsize s)) rs end.
Lemma write_ok : forall m x (l : list str), Forall (entries m) (map (fun t => [(x, val (VStr t))]) l).
Proof. intros m x l. apply Forall_map. apply Forall_forall. intros t _. constructor; [exact Logic.I|constructor]. Qed.
Lemma decide_ok : forall p hd code c s d, Forall good code -> head_ok py gen hd code -> plok (fsize s) p -> sok s -> decide py p hd code c s = Ok d -> dok s d.
Proof.
  intros p hd code c s d C Hd [P1 P2] H E. assert (D : forall x y d, read_fun py gen (y, code) -> Ok (Skip M_Exec.CNone (set_world s (set_name (s_world s) p x (GObj _ _ (RC y code (p_inst p) (p_scopes p)))))) = Ok d -> dok s d).
  { intros x y d0 Rf X. injection X as <-. cbn [dok]. apply kept_name; [exact H|]. cbn [vok]. now repeat split. }
  destruct hd; cbn [decide head_ok] in E, Hd; try discriminate; try (now apply (D _ _ _ Hd) in E).
  - destruct (instance py (s_world s) p (L "self")); [|discriminate]. cbn [rbind] in E. destruct (lookup py (s_world s) p _); [|discriminate]. cbn [rbind] in E. destruct (render_attrs _ _); [|discriminate]. injection E as <-. apply write_ok.
  - destruct (instance py (s_world s) p (L "self")); [|discriminate]. cbn [rbind] in E. destruct (attributes py (s_world s) p _); [|discriminate]. cbn [rbind] in E. destruct (render_attrs _ _); [|discriminate]. injection E as <-. apply write_ok.
  - destruct (rounds py (s_world s) p _) as [l|] eqn:R; [|discriminate]. injection E as <-. exact (rounds_ok _ _ _ _ _ R).
  - destruct (condition py (s_world s) p _) as [[|]|]; try discriminate; injection E as <-; [exact Logic.I|now apply kept_refl].
  - destruct c as [|[|]|]; try discriminate; [injection E as <-; now apply kept_refl|]. destruct (instance py (s_world s) p (L "local")); [|discriminate]. cbn [rbind] in E. destruct (evalue py (s_world s) p _) as [v|]; [|discriminate]. cbn [rbind] in E. destruct (s_switch s _) as [|x l]; [discriminate|].
    destruct (veq py v x); injection E as <-; [exact Logic.I|now apply kept_refl].
  - destruct c as [|[|]|]; try discriminate; injection E as <-; [now apply kept_refl|exact Logic.I|exact Logic.I].
Qed.
Lemma both_kept : forall s s' t, kept s s' -> thok (fsize s) t -> both (fsize s) (t, s').
Proof. intros s s' t [H E] T. split; cbn [fst snd]; [lia|]. split; [now rewrite E|exact H]. Qed.
Lemma step_ok : forall t s, thok (fsize s) t -> sok s -> both (fsize s) (step py load t s).
Proof.
  intros [depth out todo|o|e] s T H; [|now apply both_kept; [apply kept_refl|]|now apply both_kept; [apply kept_refl|]]. cbn [thok] in T. destruct todo as [|i todo]; [now apply both_kept; [apply kept_refl|]|]. apply Forall_cons_iff in T as [Ti T]. destruct i as [p l c|p body rs|b|b p x]; cbn [item_ok] in Ti.
  - destruct Ti as [Pl Fl]. destruct l as [|b l]; [now apply both_kept; [apply kept_refl|]|]. apply Forall_cons_iff in Fl as [B F]. cbn [step].
    assert (SI : match b with Bl _ _ => False | _ => True end -> both (fsize s) (attempt (exec py load no_invoke p b c s) s (fun r => (Running depth (out ++ fst (fst r)) (IBlock p l (snd (fst r)) :: todo), snd r)))).
    { intros Nb. apply attempt_ok; [exact H|lia|]. intros r E. apply both_kept; [now apply (exec_ok p b c s)|]. cbn [thok]. constructor; [now split|exact T]. }
    destruct b as [tx g|q|hd body|ls]; try (apply SI; exact Logic.I).
    + apply attempt_ok; [exact H|lia|]. intros [q1|] E; [|apply SI; exact Logic.I]. apply enter_ok; [now apply (call_ok p q s)|]. constructor; [now split|exact T].
    + cbn [P_After.good] in B. destruct B as [B Hd]. apply good_body in B. apply attempt_ok; [exact H|lia|]. intros d E. pose proof (decide_ok _ _ _ _ _ _ B Hd Pl H E) as D.
      destruct d as [c' s'|c'|rs]; cbn [dok] in D; apply both_kept; try (now apply kept_refl); try exact D; cbn [thok]; repeat (constructor; try (now split); try assumption).
  - destruct Ti as (Pl & B & R). destruct rs as [|r rs]; [now apply both_kept; [apply kept_refl|]|]. apply Forall_cons_iff in R as [R1 R2]. cbn [step]. apply both_kept; [apply kept_set; [exact H|apply set_names_ok; [apply H|exact R1]|apply set_names_size]|]. cbn [thok]. constructor; [now split|]. constructor; [now split|exact T].
  - now apply both_kept; [apply kept_refl|].
  - cbn [step]. apply attempt_ok; [exact H|lia|]. intros v E. apply both_kept; [apply kept_name; [exact H|exact Logic.I]|exact T].
Qed.
End After.
