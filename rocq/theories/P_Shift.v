(** * Proofs: template objects besides others

    The same run in a heap that begins with other objects, and with other calls: all numbers are shifted. *)

From Coq Require Import Ascii String List Arith NArith ZArith Bool Lia.
From Verif Require Import PyStr PyStrLemmas M_Values M_IR M_Template P_Template P_Deep M_Run.
Import ListNotations.
Open Scope list_scope.

(** ** Results *)
Definition sim {A B : Type} (f : A -> B) (r : result A) (r' : result B) : Prop := r' = rmap f r.
Lemma sim_eq : forall A B (f : A -> B) r r', r' = rmap f r -> sim f r r'.
Proof. now intros. Qed.
Lemma sim_bind : forall A B C D (f : A -> B) (g : C -> D) r r' k k', sim f r r' -> (forall a, r = Ok a -> sim g (k a) (k' (f a))) -> sim g (rbind r k) (rbind r' k').
Proof. intros A B C D f g r r' k k' -> H. destruct r as [a|e]; cbn [rmap rbind]; [now apply H|reflexivity]. Qed.
Lemma sim_map : forall A B C D (f : A -> B) (g : C -> D) r r' (k : A -> C) (k' : B -> D), sim f r r' -> (forall a, r = Ok a -> k' (f a) = g (k a)) -> sim g (rmap k r) (rmap k' r').
Proof. intros A B C D f g r r' k k' -> H. destruct r as [a|e]; [unfold sim; cbn; now rewrite H|reflexivity]. Qed.

(** ** Dictionaries *)
Definition mapv {A B : Type} (f : A -> B) (d : list (str * A)) : list (str * B) := map (fun kv => (fst kv, f (snd kv))) d.
Lemma get_mapv : forall A B (f : A -> B) k d, get k (mapv f d) = option_map f (get k d).
Proof. intros A B f k d. induction d as [|[k' v] d IH]; [reflexivity|]. cbn [mapv map get fst snd]. destruct (seqb k k'); [reflexivity|exact IH]. Qed.
Lemma has_mapv : forall A B (f : A -> B) k d, has k (mapv f d) = has k d.
Proof. intros A B f k d. unfold has. rewrite get_mapv. now destruct (get k d). Qed.
Lemma set_mapv : forall A B (f : A -> B) k v d, set k (f v) (mapv f d) = mapv f (set k v d).
Proof. intros A B f k v d. induction d as [|[k' v'] d IH]; [reflexivity|]. cbn [mapv map set fst snd]. destruct (seqb k k'); [reflexivity|]. cbn [map fst snd]. f_equal. exact IH. Qed.
Lemma fold_set_mapv : forall A B (f : A -> B) u d, fold_left (fun d kv => set (fst kv) (snd kv) d) (mapv f u) (mapv f d) = mapv f (fold_left (fun d kv => set (fst kv) (snd kv) d) u d).
Proof. intros A B f u. induction u as [|[k v] u IH]; intros d; [reflexivity|]. cbn [mapv map fold_left fst snd]. rewrite set_mapv. apply IH. Qed.

Section Shift.
Variable code : Type.
Notation gval := (gval (fobj code) (str * code)).
Notation heap := (heap (fobj code) (str * code)).
Notation cls := (cls (fobj code) (str * code)).
Variable h0 : heap.
Variable fs0 : list (frame code).
Notation n := (length h0).
Notation m := (length fs0).

Definition st (t : tplfun (str * code)) : tplfun (str * code) := TplFunc _ (f_code _ t) (n + f_inst _ t).
Definition sg (g : gval) : gval :=
  match g with
  | GObj _ _ (RV v) => GObj _ _ (RV v)
  | GObj _ _ (RC d b i ss) => GObj _ _ (RC d b (n + i) (map (Nat.add m) ss))
  | GInst _ _ i => GInst _ _ (n + i)
  | GFun _ _ t => GFun _ _ (st t)
  | GDefined _ _ i => GDefined _ _ (n + i)
  | GValueOf _ _ i => GValueOf _ _ (n + i)
  | g => g
  end.
Notation sd := (mapv sg).
Definition sc (c : context (fobj code) (str * code)) : context (fobj code) (str * code) :=
  match c with Given _ _ d => Given _ _ (sd d) | GlobalsOf _ _ i => GlobalsOf _ _ (n + i) end.
Definition si (x : inst (fobj code) (str * code)) : inst (fobj code) (str * code) :=
  Inst _ _ (i_class _ _ x) (sc (i_context _ _ x)) (sd (i_globals _ _ x)) (mapv st (i_attrs _ _ x)).
Definition sh (h : heap) : heap := h0 ++ map si h.
Definition sf (f : frame code) : frame code := Frame (fr_names f) (sd (fr_vars f)).
Definition sfs (l : list (frame code)) : list (frame code) := fs0 ++ map sf l.
Definition sw (w : world code) : world code := World (sh (w_heap w)) (sfs (w_frames w)).
Definition sp (p : place) : place := Place (n + p_inst p) (map (Nat.add m) (p_scopes p)).
Definition scall (c : callable code) : callable code := let '(d, b, i, ss) := c in (d, b, n + i, map (Nat.add m) ss).

(** Classes hold no objects of templates: base globals are values. *)
Definition closed (c : cls) : Prop := Forall (fun kv => exists v, snd kv = val v) (base_globals _ _ c).
Lemma closed_dict : forall d : list (str * gval), Forall (fun kv => exists v, snd kv = val v) d -> sd d = d.
Proof. intros d H. induction H as [|[k g] d [v E] H IH]; [reflexivity|]. cbn [mapv map fst snd] in *. rewrite E. cbn [sg val]. f_equal. exact IH. Qed.

(** ** Heaps *)
Lemma nth_sh : forall h i, nth_error (sh h) (n + i) = option_map si (nth_error h i).
Proof. intros h i. unfold sh. rewrite nth_error_app2 by lia. replace (n + i - n) with i by lia. now rewrite nth_error_map. Qed.
Lemma globals_sh : forall h i, globals _ _ (sh h) (n + i) = sd (globals _ _ h i).
Proof. intros h i. unfold globals. rewrite nth_sh. now destruct (nth_error h i). Qed.
Lemma attrs_sh : forall h i, attrs _ _ (sh h) (n + i) = mapv st (attrs _ _ h i).
Proof. intros h i. unfold attrs. rewrite nth_sh. now destruct (nth_error h i). Qed.
Lemma put_app : forall (a b : heap) i x, put _ _ (a ++ b) (length a + i) x = a ++ put _ _ b i x.
Proof. induction a as [|y a IH]; intros b i x; [reflexivity|]. cbn [app length Nat.add put]. now rewrite IH. Qed.
Lemma put_map : forall (h : heap) i x, put _ _ (map si h) i (si x) = map si (put _ _ h i x).
Proof. induction h as [|y h IH]; intros [|i] x; cbn [map put]; [reflexivity..|now rewrite IH]. Qed.
Lemma with_globals_sh : forall h i d, with_globals _ _ (sh h) (n + i) (sd d) = sh (with_globals _ _ h i d).
Proof. intros h i d. unfold with_globals. rewrite nth_sh. destruct (nth_error h i) as [x|]; cbn [option_map]; [|reflexivity]. unfold sh. rewrite put_app. f_equal. now rewrite <- put_map. Qed.
Lemma with_attrs_sh : forall h i d, with_attrs _ _ (sh h) (n + i) (mapv st d) = sh (with_attrs _ _ h i d).
Proof. intros h i d. unfold with_attrs. rewrite nth_sh. destruct (nth_error h i) as [x|]; cbn [option_map]; [|reflexivity]. unfold sh. rewrite put_app. f_equal. now rewrite <- put_map. Qed.
Lemma update_sd : forall d u, update _ _ (sd d) (sd u) = sd (update _ _ d u).
Proof. intros d u. unfold update. apply fold_set_mapv. Qed.
Lemma context_sh : forall h c, context_of _ _ (sh h) (sc c) = sd (context_of _ _ h c).
Proof. intros h [d|i]; [reflexivity|]. cbn [sc context_of]. apply globals_sh. Qed.
Lemma init_sh : forall i c ctx, closed c -> init_globals _ _ (n + i) c (sd ctx) = sd (init_globals _ _ i c ctx).
Proof.
  intros i c ctx Hc. unfold init_globals.
  assert (E1 : update _ _ (helpers _ _ (n + i)) (base_globals _ _ c) = sd (update _ _ (helpers _ _ i) (base_globals _ _ c))).
  { rewrite <- update_sd, (closed_dict _ Hc). reflexivity. }
  rewrite E1.
  assert (E2 : map (fun kf => (fst kf, GFun (fobj code) _ (snd kf))) (bound _ (n + i) (methods _ _ c)) = sd (map (fun kf => (fst kf, GFun (fobj code) _ (snd kf))) (bound _ i (methods _ _ c)))).
  { unfold bound, mapv. rewrite !map_map. apply map_ext. intros [k f]. reflexivity. }
  rewrite E2, !update_sd. match goal with |- context [get (L "gettext") (sd ?d)] => set (g := d) end. rewrite get_mapv.
  destruct (get (L "gettext") g) as [v|]; cbn [option_map]; rewrite ?set_mapv; exact (set_mapv _ _ sg (L "value_of") (GValueOf _ _ i) _).
Qed.
Lemma length_sh : forall h, length (sh h) = n + length h.
Proof. intros h. unfold sh. now rewrite app_length, map_length. Qed.
Lemma new_sh : forall h c ctx, closed c -> new _ _ (sh h) c (sc ctx) = (sh (fst (new _ _ h c ctx)), n + snd (new _ _ h c ctx)).
Proof.
  intros h c ctx Hc. unfold new. cbn [fst snd]. rewrite length_sh, context_sh, (init_sh _ _ _ Hc). f_equal. unfold sh. rewrite map_app, app_assoc. cbn [map]. f_equal. f_equal. unfold si. cbn [i_class i_context i_globals i_attrs].
  f_equal. unfold bound, mapv. rewrite map_map. apply map_ext. intros [k f]. reflexivity.
Qed.
Lemma is_fun_sg : forall g, is_fun _ _ (sg g) = is_fun _ _ g.
Proof. intros [[v|d b i ss]| | | | | | | | ]; reflexivity. Qed.
Lemma overrides_sd : forall d, overrides _ _ (sd d) = sd (overrides _ _ d).
Proof. intros d. unfold overrides. induction d as [|[k g] d IH]; [reflexivity|]. cbn [mapv map filter fst snd]. rewrite is_fun_sg. destruct (negb (seqb k (L "__main__")) && is_fun _ _ g); cbn [map fst snd]; [f_equal|]; exact IH. Qed.
Lemma hasattr_sh : forall h i k, hasattr _ _ (sh h) (n + i) k = hasattr _ _ h i k.
Proof. intros h i k. unfold hasattr. now rewrite attrs_sh, has_mapv. Qed.
Lemma inherit_sh : forall i h k g, inherit _ _ (n + i) (sh h) (k, sg g) = sh (inherit _ _ i h (k, g)).
Proof.
  intros i h k g. unfold inherit. rewrite is_fun_sg. destruct (seqb k (L "__main__") || negb (is_fun _ _ g)); [reflexivity|]. rewrite globals_sh, has_mapv, set_mapv, with_globals_sh.
  assert (E : forall h1, (if hasattr _ _ (sh h1) (n + i) k then sh h1 else with_attrs _ _ (sh h1) (n + i) (set k (TplFunc _ (Trampoline _ k) (n + i)) (attrs _ _ (sh h1) (n + i)))) =
    sh (if hasattr _ _ h1 i k then h1 else with_attrs _ _ h1 i (set k (TplFunc _ (Trampoline _ k) i) (attrs _ _ h1 i)))).
  { intros h1. rewrite hasattr_sh, attrs_sh. destruct (hasattr _ _ h1 i k); [reflexivity|]. rewrite <- with_attrs_sh. f_equal. exact (set_mapv _ _ st k (TplFunc _ (Trampoline _ k) i) _). }
  destruct (has k (globals _ _ h i)); apply E.
Qed.
Lemma inherits_sh : forall i d h, fold_left (inherit _ _ (n + i)) (sd d) (sh h) = sh (fold_left (inherit _ _ i) d h).
Proof. intros i d. induction d as [|[k g] d IH]; intros h; [reflexivity|]. cbn [mapv map fold_left fst snd]. rewrite inherit_sh. apply IH. Qed.
Definition shi (hp : heap * nat) : heap * nat := (sh (fst hp), n + snd hp).
Lemma extend_sh : forall h i c, closed c -> extend _ _ (sh h) (n + i) c = rmap shi (extend _ _ h i c).
Proof.
  intros h i c Hc. unfold extend. rewrite nth_sh. destruct (nth_error h i) as [x|]; cbn [option_map]; [|reflexivity]. cbn [si i_context]. rewrite (new_sh _ _ _ Hc).
  destruct (new _ _ h c (i_context _ _ x)) as [h1 p]. cbn [fst snd]. rewrite !globals_sh, overrides_sd, update_sd, with_globals_sh, globals_sh, inherits_sh.
  set (h2 := fold_left _ _ _). rewrite globals_sh. change (GInst (fobj code) (str * code) (n + i)) with (sg (GInst _ _ i)). rewrite set_mapv, with_globals_sh.
  set (h3 := with_globals _ _ h2 p _). rewrite globals_sh. change (GInst (fobj code) (str * code) (n + p)) with (sg (GInst _ _ p)). rewrite set_mapv, with_globals_sh.
  set (h4 := with_globals _ _ h3 p _). rewrite globals_sh, get_mapv. destruct (get (L "self") (globals _ _ h4 i)) as [s|]; cbn [option_map]; [|reflexivity].
  rewrite globals_sh, set_mapv, with_globals_sh, globals_sh, set_mapv, with_globals_sh, globals_sh, set_mapv, with_globals_sh. reflexivity.
Qed.
Lemma import_sh : forall h name alias c g, closed c -> import_ _ _ (sh h) name alias c (n + g) = shi (import_ _ _ h name alias c g).
Proof.
  intros h name alias c g Hc. unfold import_. change (GlobalsOf (fobj code) (str * code) (n + g)) with (sc (GlobalsOf _ _ g)). rewrite (new_sh _ _ _ Hc).
  destruct (new _ _ h c (GlobalsOf _ _ g)) as [h1 r]. cbn [fst snd]. rewrite globals_sh. change (GInst (fobj code) (str * code) (n + r)) with (sg (GInst _ _ r)). rewrite set_mapv, with_globals_sh. reflexivity.
Qed.

(** ** Names and expressions *)
Variable py : python.
Notation builtins := (fun k => option_map (@val code) (builtin_value py k)).
Lemma resolve_sh : forall h i k, resolve _ _ builtins (sh h) (n + i) k = rmap sg (resolve _ _ builtins h i k).
Proof. intros h i k. unfold resolve. rewrite globals_sh, get_mapv. destruct (get k (globals _ _ h i)); cbn [option_map]; [reflexivity|]. now destruct (builtin_value py k). Qed.
Lemma instance_sg : forall h g, as_instance _ _ (sh h) (sg g) = rmap (Nat.add n) (as_instance _ _ h g).
Proof. intros h [[v|d b i ss]| | | | | | | | ]; reflexivity. Qed.
Lemma getattr_sh : forall h i k, getattr _ _ (sh h) (n + i) k = rmap st (getattr _ _ h i k).
Proof. intros h i k. unfold getattr. rewrite attrs_sh, get_mapv. now destruct (get k (attrs _ _ h i)). Qed.
Lemma target_sh : forall fuel h t, target _ _ builtins fuel (sh h) (st t) = rmap (fun ci => (fst ci, n + snd ci)) (target _ _ builtins fuel h t).
Proof.
  induction fuel as [|fuel IH]; intros h [c i]; [now destruct c|]. destruct c as [c|k]; [reflexivity|]. cbn [target f_code f_inst st].
  rewrite resolve_sh. destruct (resolve _ _ builtins h i (L "parent")) as [g|]; [|reflexivity]. cbn [rmap rbind]. rewrite instance_sg. destruct (as_instance _ _ h g) as [p|]; [|reflexivity]. cbn [rmap rbind].
  rewrite getattr_sh. destruct (getattr _ _ h p k) as [t|]; [|reflexivity]. cbn [rmap rbind]. apply IH.
Qed.
Lemma builtins_plain : forall k i, builtins k <> Some (GInst (fobj code) (str * code) i).
Proof. intros k i E. cbv beta in E. destruct (builtin_value py k); discriminate. Qed.
Lemma callable_sim : forall h t, tidy _ _ h -> sim scall (tpl_callable py h t) (tpl_callable py (sh h) (st t)).
Proof.
  intros h t T. unfold tpl_callable, sim. rewrite target_sh, length_sh. rewrite (target_enough _ _ _ builtins_plain h t (S (n + length h)) T) by lia. destruct (target _ _ builtins (S (length h)) h t) as [[[d b] i]|]; reflexivity.
Qed.
Lemma method_sh : forall h i k, method (sh h) (n + i) k = rmap st (method h i k).
Proof. intros h i k. unfold method. rewrite getattr_sh. destruct (getattr _ _ h i k); cbn [rmap rbind]; [reflexivity|]. now destruct (smem k template_attributes). Qed.
Lemma nth_sfs : forall l i, nth_error (sfs l) (m + i) = option_map sf (nth_error l i).
Proof. intros l i. unfold sfs. rewrite nth_error_app2 by lia. replace (m + i - m) with i by lia. now rewrite nth_error_map. Qed.
Lemma find_sh : forall l x scopes err, find_name (sfs l) err (map (Nat.add m) scopes) x = option_map (rmap sg) (find_name l err scopes x).
Proof.
  intros l x scopes. induction scopes as [|f scopes IH]; intros err; [reflexivity|]. cbn [map find_name]. rewrite nth_sfs. destruct (nth_error l f) as [fr|]; cbn [option_map]; [|apply IH].
  cbn [sf fr_names fr_vars]. destruct (smem x (fr_names fr)); [|apply IH]. rewrite get_mapv. now destruct (get x (fr_vars fr)).
Qed.
Lemma lookup_sh : forall w p x, lookup py (sw w) (sp p) x = rmap sg (lookup py w p x).
Proof.
  intros w p x. unfold lookup. cbn [sw sp w_frames w_heap p_scopes p_inst]. rewrite find_sh. destruct (find_name (w_frames w) "UnboundLocalError" (p_scopes p) x); cbn [option_map]; [reflexivity|]. apply resolve_sh.
Qed.
Lemma put_frame_app : forall (a b : list (frame code)) i x, put_frame (a ++ b) (length a + i) x = a ++ put_frame b i x.
Proof. induction a as [|y a IH]; intros b i x; [reflexivity|]. cbn [app length Nat.add put_frame]. now rewrite IH. Qed.
Lemma put_frame_map : forall (l : list (frame code)) i x, put_frame (map sf l) i (sf x) = map sf (put_frame l i x).
Proof. induction l as [|y l IH]; intros [|i] x; cbn [map put_frame]; [reflexivity..|now rewrite IH]. Qed.
Lemma set_name_sh : forall w p x g, set_name (sw w) (sp p) x (sg g) = sw (set_name w p x g).
Proof.
  intros w p x g. unfold set_name. cbn [sp p_scopes]. destruct (p_scopes p) as [|f ss]; [reflexivity|]. cbn [map sw w_frames]. rewrite nth_sfs. destruct (nth_error (w_frames w) f) as [fr|]; cbn [option_map]; [|reflexivity].
  cbn [sf fr_names fr_vars w_heap]. unfold sw. cbn [w_heap w_frames]. f_equal. rewrite set_mapv. unfold sfs. rewrite put_frame_app. f_equal. rewrite <- put_frame_map. reflexivity.
Qed.
Lemma set_names_sh : forall p l w, set_names (sw w) (sp p) (sd l) = sw (set_names w p l).
Proof. intros p l. induction l as [|[x g] l IH]; intros w; [reflexivity|]. cbn [mapv map set_names fst snd]. rewrite set_name_sh. apply IH. Qed.
Lemma local_sh : forall w p x, local_value (sw w) (sp p) x = option_map sg (local_value w p x).
Proof.
  intros w p x. unfold local_value. cbn [sp p_scopes]. destruct (p_scopes p) as [|f ss]; [reflexivity|]. cbn [map sw w_frames]. rewrite nth_sfs. destruct (nth_error (w_frames w) f) as [fr|]; cbn [option_map]; [|reflexivity].
  cbn [sf fr_vars]. apply get_mapv.
Qed.
Lemma value_sg : forall g, as_value (sg g) = as_value g.
Proof. intros [[v|d b i ss]| | | | | | | | ]; reflexivity. Qed.
Lemma reads_sh : forall w p xs, reads py (sw w) (sp p) xs = reads py w p xs.
Proof. intros w p xs. unfold reads. apply map_ext. intros x. rewrite lookup_sh. destruct (lookup py w p x); cbn [rmap rbind]; [now rewrite value_sg|reflexivity]. Qed.
Lemma arg_sh : forall w p a, eval_arg py (sw w) (sp p) a = rmap sg (eval_arg py w p a).
Proof. intros w p [x|xs f]; cbn [eval_arg]; [apply lookup_sh|]. rewrite reads_sh. now destruct (f (reads py w p xs)). Qed.
Notation sas := (map (fun kg : option str * gval => (fst kg, sg (snd kg)))).
Lemma args_sh : forall w p l, eval_args py (sw w) (sp p) l = rmap sas (eval_args py w p l).
Proof.
  intros w p l. induction l as [|[k a] l IH]; [reflexivity|]. cbn [eval_args]. rewrite arg_sh, IH. destruct (eval_arg py w p a); cbn [rmap rbind]; [|reflexivity]. now destruct (eval_args py w p l).
Qed.
Lemma values_sh : forall l, values (sas l) = values l.
Proof. intros l. unfold values. rewrite map_map. apply map_ext. intros [k g]. cbn [fst snd]. now rewrite value_sg. Qed.
Definition sfound (f : found code) : found code :=
  match f with FTemplate c => FTemplate (scall c) | FBuiltin g => FBuiltin (sg g) | f => f end.
Lemma callee_sim : forall w p c, tidy _ _ (w_heap w) -> sim sfound (find_callee py w p c) (find_callee py (sw w) (sp p) c).
Proof.
  intros w p [f|o k] T; cbn [find_callee]; (eapply sim_bind; [apply sim_eq, lookup_sh|]); intros g _.
  - destruct g as [[v|d b i ss]| | | | | | | | ]; try (reflexivity). cbn [sg sw w_heap]. eapply sim_map; [now apply callable_sim|]. reflexivity.
  - destruct g as [[v|d b i ss]| | | | | | | | ]; try (reflexivity). cbn [sg sw w_heap]. rewrite method_sh. eapply sim_bind; [reflexivity|]. intros t _. eapply sim_map; [now apply callable_sim|]. reflexivity.
Qed.
Lemma builtin_sh : forall h g args, call_builtin py (sh h) (sg g) args = call_builtin py h g args.
Proof.
  intros h g args. destruct g as [[v|d b i ss]|i|t|i|i| | | |]; try reflexivity; cbn [sg call_builtin]; rewrite globals_sh.
  - destruct args as [|[[k|] v] [|]]; try reflexivity. destruct v; try reflexivity. now rewrite has_mapv.
  - assert (G : forall k, get k (sd (globals _ _ h i)) = option_map sg (get k (globals _ _ h i))) by (intros k; apply get_mapv).
    destruct args as [|[[k|] v] l]; try reflexivity. destruct v as [| | |s| | | ]; try reflexivity. rewrite G. destruct l as [|[[k|] v] [|]]; try reflexivity; destruct (get s (globals _ _ h i)); cbn [option_map]; rewrite ?value_sg; reflexivity.
Qed.
Lemma eval_sim : forall w p e, tidy _ _ (w_heap w) -> sim sg (eval py w p e) (eval py (sw w) (sp p) e).
Proof.
  intros w p [x|o k|xs f|c args] T; cbn [eval].
  - apply sim_eq, lookup_sh.
  - eapply sim_bind; [apply sim_eq, lookup_sh|]. intros g _. destruct g as [[v|d b i ss]| | | | | | | | ]; try (reflexivity); cbn [sg sw w_heap].
    + apply sim_eq. now destruct (value_attr py v k).
    + apply sim_eq. rewrite method_sh. now destruct (method (w_heap w) i k).
  - apply sim_eq. rewrite reads_sh. now destruct (f (reads py w p xs)).
  - eapply sim_bind; [now apply callee_sim|]. intros fo _. eapply sim_bind; [apply sim_eq, args_sh|]. intros l _. rewrite values_sh. destruct fo as [f|v|v k|g]; cbn [sfound].
    + reflexivity.
    + apply sim_eq. now destruct (call_object py v (values l)).
    + apply sim_eq. now destruct (call_method py v k (values l)).
    + apply sim_eq. cbn [sw w_heap]. rewrite builtin_sh. now destruct (call_builtin py (w_heap w) g (values l)).
Qed.
Notation same := (sim (fun v => v)).
Lemma evalue_sim : forall w p x, tidy _ _ (w_heap w) -> same (evalue py w p x) (evalue py (sw w) (sp p) x).
Proof. intros w p x T. unfold evalue. eapply sim_map; [now apply eval_sim|]. intros g _. apply value_sg. Qed.
Lemma condition_sim : forall w p x, tidy _ _ (w_heap w) -> same (condition py w p x) (condition py (sw w) (sp p) x).
Proof. intros w p x T. unfold condition. eapply sim_map; [now apply evalue_sim|]. reflexivity. Qed.
Lemma rseq_map : forall A B C (f : A -> result B) (f' : A -> result C) (k : B -> C) l, (forall a, f' a = rmap k (f a)) -> rseq (map f' l) = rmap (map k) (rseq (map f l)).
Proof. intros A B C f f' k l H. induction l as [|a l IH]; [reflexivity|]. cbn [map rseq]. rewrite H, IH. destruct (f a); cbn [rmap rbind]; [|reflexivity]. now destruct (rseq (map f l)). Qed.
Lemma combine_sd : forall xs (vs : list value), combine xs (map (@val code) vs) = sd (combine xs (map (@val code) vs)).
Proof. induction xs as [|x xs IH]; intros [|v vs]; try reflexivity. cbn [combine map mapv fst snd]. f_equal. apply IH. Qed.
Lemma rounds_sim : forall w p d, tidy _ _ (w_heap w) -> sim (map sd) (rounds py w p d) (rounds py (sw w) (sp p) d).
Proof.
  intros w p d T. unfold rounds. destruct (parse_for py d) as [xs e]. eapply sim_bind; [now apply eval_sim|]. intros g _. rewrite value_sg. eapply (sim_bind _ _ _ _ (fun x => x)); [apply sim_eq; now destruct (iterate py (as_value g))|]. intros items _.
  apply sim_eq, rseq_map. intros v. assert (U : forall xs : list str, rbind (unpack py v) (fun vs => if Nat.eqb (length vs) (length xs) then Ok (combine xs (map (@val code) vs)) else Raise "ValueError") =
    rmap sd (rbind (unpack py v) (fun vs => if Nat.eqb (length vs) (length xs) then Ok (combine xs (map (@val code) vs)) else Raise "ValueError"))).
  { intros ys. destruct (unpack py v) as [vs|]; [|reflexivity]. cbn [rbind]. destruct (Nat.eqb (length vs) (length ys)); [|reflexivity]. cbn [rmap rbind]. now rewrite <- combine_sd. }
  destruct xs as [|x [|x2 xs]]; [exact (U [])|reflexivity|exact (U (x :: x2 :: xs))].
Qed.
Lemma attributes_sim : forall w p x, tidy _ _ (w_heap w) -> same (attributes py w p x) (attributes py (sw w) (sp p) x).
Proof. intros w p x T. unfold attributes. eapply sim_bind; [now apply evalue_sim|]. intros v _. apply sim_eq. now destruct (attrs_of py v). Qed.
Lemma bind_some_sh : forall p xs vs w, bind_some (sw w) (sp p) xs vs = sw (bind_some w p xs vs).
Proof.
  intros p xs. induction xs as [|x xs IH]; intros [|[v|] vs] w; try reflexivity; cbn [bind_some]; [|apply IH]. rewrite <- IH. f_equal. exact (set_name_sh w p x (val v)).
Qed.
Lemma set_name_heap : forall (w : world code) p x g, w_heap (set_name w p x g) = w_heap w.
Proof. intros w p x g. unfold set_name. destruct (p_scopes p) as [|f ss]; [reflexivity|]. now destruct (nth_error (w_frames w) f). Qed.
Lemma set_names_heap : forall p l (w : world code), w_heap (set_names w p l) = w_heap w.
Proof. intros p l. induction l as [|[x g] l IH]; intros w; [reflexivity|]. cbn [set_names]. now rewrite IH, set_name_heap. Qed.
Lemma bind_some_heap : forall p xs vs (w : world code), w_heap (bind_some w p xs vs) = w_heap w.
Proof. intros p xs. induction xs as [|x xs IH]; intros [|[v|] vs] w; try reflexivity; cbn [bind_some]; [|apply IH]. now rewrite IH, set_name_heap. Qed.
Lemma block_heap : forall p l (w : world code) ow, run_block py w p l = Ok ow -> w_heap (snd ow) = w_heap w.
Proof.
  intros p l. induction l as [|[x e|xs ys f] l IH]; intros w ow E; cbn [run_block] in E; [now injection E as <-| |].
  - destruct (eval py w p e) as [g|]; [|discriminate]. cbn [rbind] in E. now rewrite (IH _ _ E), set_name_heap.
  - destruct (f (reads py w p xs)) as [[o vs]|]; [|discriminate]. cbn [rbind fst snd] in E. destruct (run_block py (bind_some w p ys vs) p l) as [[o' w']|] eqn:R; [|discriminate]. injection E as <-. cbn [snd]. pose proof (IH _ _ R) as X. cbn [snd] in X. now rewrite X, bind_some_heap.
Qed.
Definition sow (ow : list value * world code) : list value * world code := (fst ow, sw (snd ow)).
Lemma block_sim : forall p l w, tidy _ _ (w_heap w) -> sim sow (run_block py w p l) (run_block py (sw w) (sp p) l).
Proof.
  intros p l. induction l as [|[x e|xs ys f] l IH]; intros w T; cbn [run_block]; [reflexivity| |].
  - eapply sim_bind; [now apply eval_sim|]. intros g _. rewrite set_name_sh. apply IH. now rewrite set_name_heap.
  - rewrite reads_sh. eapply (sim_bind _ _ _ _ (fun x => x)); [apply sim_eq; now destruct (f (reads py w p xs))|]. intros [o vs] _. cbn [fst snd]. rewrite bind_some_sh. eapply sim_map; [apply IH; now rewrite bind_some_heap|]. intros [o' w'] _. reflexivity.
Qed.
Lemma bind_args_sh : forall d args, bind_args py d (sas args) = rmap sd (bind_args py d args).
Proof.
  intros d args. unfold bind_args. rewrite map_map. cbn [fst]. change (map (fun x : option str * gval => fst x) args) with (map fst args). destruct (bind_params py d (map fst args)) as [l|]; [|reflexivity]. cbn [rbind].
  unfold mapv. apply rseq_map. intros [x [k|v]]; cbn [fst snd]; [|reflexivity]. rewrite nth_error_map. now destruct (nth_error args k).
Qed.
Lemma instance_sh : forall w p x, instance py (sw w) (sp p) x = rmap (Nat.add n) (instance py w p x).
Proof. intros w p x. unfold instance. rewrite lookup_sh. destruct (lookup py w p x) as [g|]; cbn [rmap rbind]; [|reflexivity]. cbn [sw w_heap]. apply instance_sg. Qed.
Lemma translate_sh : forall w p t, translate py (sw w) (sp p) t = translate py w p t.
Proof.
  intros w p t. unfold translate. rewrite instance_sh. destruct (instance py w p (L "local")) as [i|]; cbn [rmap rbind]; [|reflexivity]. cbn [sw w_heap]. rewrite globals_sh, get_mapv.
  destruct (get (L "gettext") (globals _ _ (w_heap w) i)) as [[[v|d b j ss]| | | | | | | | ]|]; reflexivity.
Qed.
Variable load : bool -> str -> result cls.
Hypothesis Hload : forall fragment name c, load fragment name = Ok c -> closed c.
Definition swi (wi : world code * nat) : world code * nat := (sw (fst wi), n + snd wi).
Lemma import_template_sh : forall w p name alias, import_template py load (sw w) (sp p) name alias = rmap swi (import_template py load w p name alias).
Proof.
  intros w p name alias. unfold import_template. rewrite !instance_sh. destruct (instance py w p (L "local")) as [i|]; cbn [rmap rbind]; [|reflexivity]. destruct (instance py w p (L "self")) as [g|]; cbn [rmap rbind]; [|reflexivity].
  destruct (load true name) as [c|] eqn:E; cbn [rmap rbind]; [|reflexivity]. cbn [sw w_heap w_frames]. rewrite (import_sh _ _ _ _ _ (Hload _ _ _ E)). destruct (import_ _ _ (w_heap w) name alias c g). reflexivity.
Qed.
Lemma extend_template_sh : forall w p name, extend_template py load (sw w) (sp p) name = rmap swi (extend_template py load w p name).
Proof.
  intros w p name. unfold extend_template. rewrite !instance_sh. destruct (instance py w p (L "local")) as [i|]; cbn [rmap rbind]; [|reflexivity].
  destruct (load false name) as [c|] eqn:E; cbn [rmap rbind]; [|reflexivity]. cbn [sw w_heap w_frames]. rewrite (extend_sh _ _ _ (Hload _ _ _ E)). destruct (extend _ _ (w_heap w) i c) as [[h q]|]; reflexivity.
Qed.
Lemma main_sim : forall h i, tidy _ _ h -> sim scall (main_of py h i) (main_of py (sh h) (n + i)).
Proof. intros h i T. unfold main_of. eapply sim_bind; [apply sim_eq, getattr_sh|]. intros t _. now apply callable_sim. Qed.

End Shift.
