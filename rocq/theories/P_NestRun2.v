(** * Proofs: properly nested output, expressions and variables *)

From Coq Require Import Ascii String List Arith NArith ZArith Bool Lia.
From Verif Require Import PyStr PyStrLemmas M_Values S_Values P_Values M_IR S_IR M_Template S_Template P_Template M_Text M_XText M_Dom S_XFun M_Run S_Run S_XRun
  P_Run4 P_Run5 P_Run11 S_Markup P_Markup S_Nested P_Nested S_NestRun P_NestRun.
From Verif Require M_Exec P_Exec.
Import ListNotations.
Open Scope list_scope.

Section Eval.
Variable py : python.
Variable html : bool.
Variable F : str -> Prop.
Variable const : str -> option M_Values.value.
Hypothesis Fh : forall k, F k -> ~ In k helper_names.
Hypothesis Co : forall k v, const k = Some v -> ~ In k own_names.
Hypothesis G : gentle_python py html F.
Notation safe := (S_Nested.safe html).
Notation safe_rstm := (safe_rstm py html F const).
Notation safe_decl := (safe_decl py html F const).
Notation safe_expr := (safe_expr html).
Notation free_name := (free_name F const).
Notation wr := (nested_text html).
Notation main := (L "__main__").
Notation gval_ok := (gval_ok py html F const).
Notation var_ok := (var_ok py html F const).
Notation entry_ok := (entry_ok py html F const).
Notation heap_ok := (heap_ok py html F const).
Notation callable_ok := (callable_ok py html F const).

Definition frame_ok (n : nat) (fr : frame dcode) : Prop :=
  Forall (fun kv => var_ok n (fst kv) (snd kv)) (fr_vars fr) /\ Forall (fun x => const x = None) (fr_names fr).
Definition size (w : dworld) : nat := length (w_heap w).
Definition world_ok (w : dworld) : Prop := heap_ok (w_heap w) /\ Forall (frame_ok (size w)) (w_frames w).
Definition grows (w w' : dworld) : Prop := world_ok w' /\ size w <= size w'.
Lemma grows_refl : forall w, world_ok w -> grows w w.
Proof. intros w H. split; [exact H|lia]. Qed.
Lemma grows_trans : forall a b c, grows a b -> grows b c -> grows a c.
Proof. intros a b c [_ H1] [H2 H3]. split; [exact H2|lia]. Qed.

Lemma object_safe : safe (VObj (L "<object>")).
Proof. exists (map I_char (L "<object>")). change (render [escape (VObj (L "<object>"))]) with (escape_str (L "<object>")). apply written_of_text, written_escape. Qed.
Lemma unit_safe : safe M_Exec.unit_value.
Proof. exists (map I_char (L "()")). change (render [escape M_Exec.unit_value]) with (escape_str (L "()")). apply written_of_text, written_escape. Qed.
Lemma plain_safe : forall v, v = VNone \/ S_Values.plain v -> safe v.
Proof.
  intros v [->|P]; [exists []; constructor|]. exists (map I_char (to_str v)).
  assert (escape v = VStr (escape_str (to_str v))) as -> by (destruct v; try destruct P; reflexivity). rewrite render_str. apply written_of_text, written_escape.
Qed.
Lemma as_value_safe : forall n v, gval_ok n v -> safe (as_value v).
Proof. intros n v H. destruct v as [[v|d b i ss]|i|f|i|i| | | |]; try exact object_safe. exact H. Qed.
Lemma entry_value_safe : forall n k v, entry_ok n k v -> safe (as_value v).
Proof. intros n k v [[H|[[-> _]|(_ & f & -> & _)]] _]; [now apply (as_value_safe n)|exact object_safe|exact object_safe]. Qed.

(** ** Names *)
Lemma find_name_ok : forall n fs err scopes x v, Forall (frame_ok n) fs -> find_name fs err scopes x = Some (Ok v) -> var_ok n x v.
Proof.
  intros n fs err scopes x v H. revert err. induction scopes as [|f scopes IH]; intros err E; cbn [find_name] in E; [discriminate|].
  destruct (nth_error fs f) as [fr|] eqn:Ef; [|now apply (IH "NameError"%string)]. destruct (smem x (fr_names fr)); [|now apply (IH "NameError"%string)].
  destruct (get x (fr_vars fr)) as [v'|] eqn:Eg; [|discriminate]. assert (v' = v) as -> by congruence. apply get_some_in in Eg. rewrite Forall_forall in H.
  destruct (H fr) as [Hv _]; [now apply nth_error_In in Ef|]. rewrite Forall_forall in Hv. exact (Hv _ Eg).
Qed.
Lemma lookup_entry : forall w p x v, world_ok w -> lookup py w p x = Ok v -> entry_ok (size w) x v \/ var_ok (size w) x v.
Proof.
  intros w p x v [Hh Hf] E. unfold lookup in E. destruct (find_name _ _ _ x) as [r|] eqn:En; [subst r; right; now apply (find_name_ok _ _ _ _ _ _ Hf En)|].
  unfold resolve in E. destruct (get x (globals _ _ (w_heap w) (p_inst p))) as [v'|] eqn:Eg.
  - assert (v' = v) as -> by congruence. left. apply (forall_get py html F const _ _ _ _ (globals_ok py html F const _ _ Hh) Eg).
  - destruct (builtin_value py x) as [b|] eqn:Eb; cbn [option_map] in E; [|discriminate]. assert (v = val b) as -> by congruence. destruct (gp_builtin _ _ _ G x b Eb) as [Sb Nx]. right. split; [exact Sb|]. intros Hx. now destruct Nx.
Qed.
Lemma lookup_ok : forall w p x v, world_ok w -> lookup py w p x = Ok v -> ~ In x showing_all -> gval_ok (size w) v.
Proof.
  intros w p x v H E Nx. destruct (lookup_entry w p x v H E) as [[[H1|[[_ H1]|[H1 _]]] _]|[H1 _]]; try assumption; [contradiction|]. subst x. destruct Nx. cbn. tauto.
Qed.
Lemma lookup_function : forall w p x v, world_ok w -> lookup py w p x = Ok v -> F x -> funlike v.
Proof. intros w p x v H E Hx. destruct (lookup_entry w p x v H E) as [(_ & _ & H1)|[_ H1]]; now apply H1. Qed.
Lemma lookup_safe : forall w p x v, world_ok w -> lookup py w p x = Ok v -> safe (as_value v).
Proof. intros w p x v H E. destruct (lookup_entry w p x v H E) as [H1|[H1 _]]; [now apply entry_value_safe in H1|now apply as_value_safe in H1]. Qed.
Lemma reads_safe : forall w p xs, world_ok w -> Forall (safe_result html) (reads py w p xs).
Proof.
  intros w p xs H. unfold reads. apply Forall_forall. intros r I1. apply in_map_iff in I1. destruct I1 as (x & <- & _). intros v E. destruct (lookup py w p x) as [g|] eqn:El; [|discriminate]. cbn [rmap] in E.
  injection E as <-. now apply (lookup_safe w p x).
Qed.
Lemma knows_ok : forall w p, world_ok w -> p_inst p < size w -> knows py const w p.
Proof.
  intros w p [Hh Hf] Hp k v Ek. unfold lookup.
  assert (find_name (w_frames w) "UnboundLocalError" (p_scopes p) k = None) as ->.
  { generalize "UnboundLocalError"%string. induction (p_scopes p) as [|f ss IH]; intros err; cbn [find_name]; [reflexivity|]. destruct (nth_error (w_frames w) f) as [fr|] eqn:Ef; [|apply IH].
    destruct (smem k (fr_names fr)) eqn:Em; [|apply IH]. apply smem_In in Em. rewrite Forall_forall in Hf. destruct (Hf fr) as [_ Hn]; [now apply nth_error_In in Ef|]. rewrite Forall_forall in Hn. rewrite (Hn k Em) in Ek. discriminate. }
  unfold resolve. destruct (globals_constants py html F const (w_heap w) (p_inst p) Hh Hp) as [K _]. now rewrite (K k v Ek).
Qed.
Lemma steady_guard : forall g c, steady_run py const g -> truthy_guard g = Some c ->
  exists b, forall w p b', world_ok w -> p_inst p < size w -> condition py w p c = Ok b' -> b' = b.
Proof. intros g c St Tg. unfold steady_run in St. rewrite Tg in St. destruct St as [b Hb]. exists b. intros w p b' Hw Hp E. apply (Hb w p b'); [now apply knows_ok|exact E]. Qed.

Lemma forall_put_frame : forall (P : frame dcode -> Prop) fs i x, Forall P fs -> P x -> Forall P (put_frame fs i x).
Proof. intros P fs i x H Hx. revert i. induction H as [|y fs H0 H IH]; intros i; [constructor|]. destruct i; cbn [put_frame]; constructor; auto. Qed.
Lemma set_name_ok : forall w p x v, world_ok w -> var_ok (size w) x v -> world_ok (set_name w p x v) /\ w_heap (set_name w p x v) = w_heap w.
Proof.
  intros w p x v [Hh Hf] Hv. unfold set_name. destruct (p_scopes p) as [|f ss]; [now repeat split|]. destruct (nth_error (w_frames w) f) as [fr|] eqn:Ef; [|now repeat split].
  split; [|reflexivity]. split; [exact Hh|]. apply forall_put_frame; [exact Hf|]. rewrite Forall_forall in Hf. destruct (Hf fr) as [H1 H2]; [now apply nth_error_In in Ef|].
  split; [|exact H2]. apply forall_set; [exact Hv|exact H1].
Qed.
Lemma set_names_ok : forall l w p, world_ok w -> Forall (fun kv => var_ok (size w) (fst kv) (snd kv)) l -> world_ok (set_names w p l) /\ w_heap (set_names w p l) = w_heap w.
Proof.
  induction l as [|[x v] l IH]; intros w p Hw H; [now split|]. apply Forall_cons_iff in H. destruct H as [Hv H]. cbn [set_names]. cbn [fst snd] in Hv.
  destruct (set_name_ok w p x v Hw Hv) as [H1 E1]. destruct (IH (set_name w p x v) p H1) as [H2 E2]; [unfold size; now rewrite E1|]. split; [exact H2|congruence].
Qed.
Lemma free_var : forall n x v, free_name x -> gval_ok n v -> var_ok n x v.
Proof. intros n x v [Nx _] Hv. split; [exact Hv|]. intros Hx. now destruct Nx. Qed.
Lemma old_values_ok : forall w p ks, world_ok w -> Forall free_name ks -> Forall (fun kv => var_ok (size w) (fst kv) (snd kv)) (old_values p ks w).
Proof.
  intros w p ks [Hh Hf] Hk. unfold old_values. induction Hk as [|k ks Hk0 Hk IH]; cbn [map]; constructor; [|exact IH]. cbn [fst snd]. apply free_var; [exact Hk0|].
  unfold local_value. destruct (p_scopes p) as [|f ss]; [exact unit_safe|]. destruct (nth_error (w_frames w) f) as [fr|] eqn:Ef; [|exact unit_safe].
  destruct (get k (fr_vars fr)) as [v|] eqn:Eg; [|exact unit_safe]. apply get_some_in in Eg. rewrite Forall_forall in Hf. destruct (Hf fr) as [H1 _]; [now apply nth_error_In in Ef|]. rewrite Forall_forall in H1. exact (proj1 (H1 _ Eg)).
Qed.

(** ** Expressions *)
Lemma eval_arg_ok : forall w p a v, world_ok w -> safe_arg html a -> eval_arg py w p a = Ok v -> gval_ok (size w) v.
Proof.
  intros w p a v H Sa E. destruct a as [x|xs f]; cbn [eval_arg safe_arg] in *; [now apply (lookup_ok w p x)|]. inv_ok E. injection E as <-.
  exact (Sa _ (reads_safe w p xs H) _ E0).
Qed.
Lemma eval_args_ok : forall w p l vs, world_ok w -> Forall (fun ka => safe_arg html (snd ka)) l -> eval_args py w p l = Ok vs -> Forall (fun kv => gval_ok (size w) (snd kv)) vs.
Proof.
  intros w p l vs H Sl. revert vs. induction Sl as [|[k a] l Sa Sl IH]; intros vs E; cbn [eval_args] in E; [injection E as <-; constructor|]. inv_ok E. injection E as <-. constructor; [|now apply IH].
  now apply (eval_arg_ok w p a).
Qed.
Lemma values_safe : forall n l, Forall (fun kv => gval_ok n (snd kv)) l -> Forall (fun kv => safe (snd kv)) (values l).
Proof. intros n l H. unfold values. induction H as [|kv l H0 H IH]; constructor; [|exact IH]. now apply (as_value_safe n). Qed.
Definition found_ok (n : nat) (fo : found dcode) : Prop :=
  match fo with FTemplate c => callable_ok n c | FObject v | FMethod v _ => safe v | FBuiltin g => gval_ok n g end.
Lemma find_callee_ok : forall w p c fo, world_ok w -> safe_callee c -> find_callee py w p c = Ok fo -> found_ok (size w) fo.
Proof.
  intros w p c fo H Sc E. pose proof (proj1 H) as Hh. destruct c as [f|o f]; cbn [find_callee safe_callee] in *; inv_ok E.
  - pose proof (lookup_ok w p f _ H E0 Sc) as Hv. destruct a as [[v|d b i ss]|i|t|i|i| | | |]; inv_ok E; try discriminate; injection E as <-; cbn [found_ok]; try exact Hv.
    apply (tpl_callable_ok py html F const (w_heap w) t); assumption.
  - pose proof (lookup_safe w p o _ H E0) as Hv. destruct a as [[v|d b i ss]|i|t|i|i| | | |]; inv_ok E; try discriminate; injection E as <-; cbn [found_ok]; try exact Hv.
    apply (tpl_callable_ok py html F const (w_heap w) a); [exact Hh| |exact E2]. now apply (method_ok py html F const (w_heap w) i f).
Qed.
Lemma call_builtin_ok : forall w g args v, world_ok w -> gval_ok (size w) g -> Forall (fun kv => safe (snd kv)) args -> call_builtin py (w_heap w) g args = Ok v -> safe v.
Proof.
  intros w g args v [Hh _] Hg Ha E. pose proof (fun i => globals_ok py html F const (w_heap w) i Hh) as Gl.
  assert (Ge : forall i k g', get k (globals _ _ (w_heap w) i) = Some g' -> safe (as_value g')).
  { intros i k g' Eg. exact (entry_value_safe _ _ _ (forall_get py html F const _ _ _ _ (Gl i) Eg)). }
  destruct g as [o|i|f|i|i| | | |]; cbn [call_builtin] in E; try discriminate E; try destruct Hg; destruct args as [|[[k0|] a0] [|[[k1|] a1] [|a2 args]]]; try discriminate E; destruct a0; try discriminate E; injection E as <-.
  all: try (apply plain_safe; right; exact Logic.I). all: try apply (gp_gettext _ _ _ G).
  - destruct (get s (globals _ _ (w_heap w) i)) as [g'|] eqn:Eg; [now apply (Ge i s)|apply plain_safe; now left].
  - destruct (get s (globals _ _ (w_heap w) i)) as [g'|] eqn:Eg; [now apply (Ge i s)|]. apply Forall_cons_iff in Ha. destruct Ha as [_ Ha]. apply Forall_cons_iff in Ha. exact (proj1 Ha).
Qed.
Lemma eval_ok : forall w p e v, world_ok w -> safe_expr e -> eval py w p e = Ok v -> gval_ok (size w) v.
Proof.
  intros w p e v H Se E. destruct e as [x|o k|xs f|c args]; cbn [eval S_NestRun.safe_expr] in *.
  - now apply (lookup_ok w p x).
  - inv_ok E. pose proof (lookup_safe w p o _ H E0) as Hv. destruct a as [[u|d b i ss]|i|t|i|i| | | |]; inv_ok E; try discriminate; injection E as <-.
    + exact (gp_attr _ _ _ G _ _ _ Hv E1).
    + cbn [P_NestRun.gval_ok]. apply (method_ok py html F const (w_heap w) i k); [apply H|exact E1|exact Se].
  - inv_ok E. injection E as <-. exact (Se _ (reads_safe w p xs H) _ E0).
  - destruct Se as [Sc Sa]. inv_ok E. pose proof (find_callee_ok w p c _ H Sc E0) as Ho. pose proof (values_safe _ _ (eval_args_ok w p args _ H Sa E1)) as Hs. destruct a as [t|u|u k|g]; cbn [found_ok] in Ho; inv_ok E; try discriminate; injection E as <-.
    + exact (gp_object _ _ _ G _ _ _ Ho Hs E2).
    + exact (gp_method _ _ _ G _ _ _ _ Ho Hs E2).
    + exact (call_builtin_ok w g _ _ H Ho Hs E2).
Qed.
Lemma evalue_ok : forall w p x v, world_ok w -> safe_text py html x -> evalue py w p x = Ok v -> safe v.
Proof. intros w p x v H Sx E. unfold evalue in E. inv_ok E. injection E as <-. apply (as_value_safe (size w)). now apply (eval_ok w p (parse py x)). Qed.

Lemma rseq_forall : forall A B (P : B -> Prop) (f : A -> result B) l r, rseq (map f l) = Ok r -> (forall a b, In a l -> f a = Ok b -> P b) -> Forall P r.
Proof.
  intros A B P f. induction l as [|a l IH]; intros r E H; cbn [map rseq] in E; [injection E as <-; constructor|].
  destruct (f a) as [b|] eqn:Ea; [|discriminate]. cbn [rbind] in E. destruct (rseq (map f l)) as [r'|] eqn:Er; [|discriminate]. cbn [rmap] in E. injection E as <-.
  constructor; [apply (H a b); [now left|exact Ea]|]. apply (IH r' eq_refl). intros a' b' I1. apply H. now right.
Qed.
Lemma rounds_ok : forall w p d l, world_ok w -> Forall free_name (fst (parse_for py d)) -> safe_expr (snd (parse_for py d)) -> rounds py w p d = Ok l ->
  Forall (Forall (fun kv => var_ok (size w) (fst kv) (snd kv))) l.
Proof.
  intros w p d l H Fx Se E. unfold rounds in E. destruct (parse_for py d) as [xs e]. cbn [fst snd] in *. inv_ok E. pose proof (as_value_safe _ _ (eval_ok w p e _ H Se E0)) as Sv. pose proof (gp_iterate _ _ _ G _ _ Sv E1) as Si.
  apply (rseq_forall _ _ _ _ _ _ E). intros v r I1 Er. rewrite Forall_forall in Si. specialize (Si v I1).
  assert (Q : rbind (unpack py v) (fun vs => if Nat.eqb (length vs) (length xs) then Ok (combine xs (map val vs)) else Raise "ValueError") = Ok r -> Forall (fun kv => var_ok (size w) (fst kv) (snd kv)) r).
  { clear Er. intros Er. inv_ok Er. destruct (Nat.eqb (length a1) (length xs)); [|discriminate]. injection Er as <-. pose proof (gp_unpack _ _ _ G _ _ Si E2) as Su. clear - Fx Su. revert xs Fx. induction Su as [|u us Hu Su IH]; intros xs Fx; [destruct xs; constructor|].
    destruct xs as [|x xs]; [constructor|]. apply Forall_cons_iff in Fx. destruct Fx as [Fx0 Fx]. cbn [map combine]. constructor; [|now apply IH]. now apply free_var. }
  destruct xs as [|x [|x' xs]]; try (apply Q; exact Er). injection Er as <-. constructor; [|constructor]. apply Forall_cons_iff in Fx. now apply free_var.
Qed.
Definition params_ok (n : nat) (l : list (str * dval)) : Prop := Forall (fun kv => var_ok n (fst kv) (snd kv) /\ const (fst kv) = None) l.
Lemma bind_args_ok : forall n d args l, safe_decl d -> Forall (fun kv => gval_ok n (snd kv)) args -> bind_args py d args = Ok l -> params_ok n l.
Proof.
  intros n d args l [_ Sd] Ha E. unfold bind_args in E. inv_ok E. specialize (Sd _ _ E0). rewrite Forall_forall in Sd. apply (rseq_forall _ _ _ _ _ _ E). intros [x [m|v]] r I1 Er; cbn [fst snd] in Er; destruct (Sd _ I1) as [Fx Sv]; cbn [fst snd] in *.
  - destruct (nth_error args m) as [a0|] eqn:En; [|discriminate]. injection Er as <-. cbn [fst snd]. rewrite Forall_forall in Ha. split; [|apply Fx]. apply free_var; [exact Fx|]. apply Ha. now apply nth_error_In in En.
  - injection Er as <-. cbn [fst snd]. split; [now apply free_var|apply Fx].
Qed.
Lemma bind_some_ok : forall w p xs vs, world_ok w -> Forall free_name xs -> Forall (fun v => match v with Some v => safe v | None => True end) vs ->
  world_ok (bind_some w p xs vs) /\ w_heap (bind_some w p xs vs) = w_heap w.
Proof.
  intros w p xs vs H Fx Sv. revert w vs H Sv. induction Fx as [|x xs Fx0 Fx IH]; intros w vs H Sv; cbn [bind_some]; [now split|].
  destruct Sv as [|[v|] vs Sv0 Sv]; [now split| |now apply IH]. destruct (set_name_ok w p x (val v) H) as [H1 E1]; [now apply free_var|]. destruct (IH (set_name w p x (val v)) vs H1 Sv) as [H2 E2]. split; [exact H2|congruence].
Qed.
Lemma run_block_ok : forall l w p o w', world_ok w -> Forall (safe_pystm html F const) l -> run_block py w p l = Ok (o, w') -> grows w w' /\ wr (render o).
Proof.
  induction l as [|s l IH]; intros w p o w' H Sl E; cbn [run_block] in E.
  - injection E as <- <-. split; [now apply grows_refl|apply wr_nil].
  - apply Forall_cons_iff in Sl. destruct Sl as [Ss Sl]. destruct s as [x e|xs ys f]; cbn [safe_pystm] in Ss.
    + inv_ok E. destruct Ss as [Fx Se]. destruct (set_name_ok w p x a H) as [H1 E1]; [apply free_var; [exact Fx|now apply (eval_ok w p e)]|]. destruct (IH _ _ _ _ H1 Sl E) as [G1 W]. split; [|exact W]. split; [apply G1|]. destruct G1 as [_ G1]. unfold size in *. rewrite E1 in G1. exact G1.
    + inv_ok E. destruct Ss as [Fy Sf]. destruct a as [out vs]. cbn [fst snd] in *. destruct (Sf _ out vs (reads_safe w p xs H) E0) as [Wo Sv]. destruct (bind_some_ok w p ys vs H Fy Sv) as [H1 E1']. destruct a0 as [o2 w2]. cbn [fst snd] in E. injection E as <- <-.
      destruct (IH _ _ _ _ H1 Sl E1) as [G1 W]. split; [|rewrite P_Exec.render_app; now apply wr_app]. split; [apply G1|]. destruct G1 as [_ G1]. unfold size in *. rewrite E1' in G1. exact G1.
Qed.
Lemma translate_ok : forall w p t v x, world_ok w -> written_text x t -> translate py w p t = Ok v -> wr (render [v]).
Proof.
  intros w p t v x H W E. unfold translate in E. inv_ok E. destruct (get (L "gettext") (globals _ _ (w_heap w) a)) as [g|] eqn:Eg; [|discriminate].
  destruct (forall_get py html F const _ _ _ _ (globals_ok py html F const _ a (proj1 H)) Eg) as (_ & No & _). specialize (No eq_refl). destruct g as [[u|d b i ss]|i|f|i|i| | | |]; try discriminate E; [destruct No|].
  injection E as <-. destruct (gp_trans _ _ _ G t x W) as [v' W']. exists (map I_char v'). now apply written_of_text.
Qed.
Lemma translate_is : forall w p t v, world_ok w -> translate py w p t = Ok v -> v = gettext py t.
Proof.
  intros w p t v H E. unfold translate in E. inv_ok E. destruct (get (L "gettext") (globals _ _ (w_heap w) a)) as [g|] eqn:Eg; [|discriminate].
  destruct (forall_get py html F const _ _ _ _ (globals_ok py html F const _ a (proj1 H)) Eg) as (_ & No & _). specialize (No eq_refl). destruct g as [[u|d b i ss]|i|f|i|i| | | |]; try discriminate E; [destruct No|]. now injection E as <-.
Qed.
Lemma instance_lt : forall w p x i, world_ok w -> ~ In x showing_all -> instance py w p x = Ok i -> i < size w.
Proof. intros w p x i H Nx E. unfold instance in E. inv_ok E. pose proof (lookup_ok w p x _ H E0 Nx) as Hv. destruct a as [o|j|f|j|j| | | |]; try discriminate E. injection E as <-. exact Hv. Qed.
End Eval.
