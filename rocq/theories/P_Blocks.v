(** * Layouts, pages, and their blocks: proofs *)

From Coq Require Import Ascii String List NArith ZArith Bool Lia Arith.
From Verif Require Import PyStr PyStrLemmas M_Values S_Values P_Values M_IR S_IR M_Template S_Template P_Template P_Template2 P_Template3 P_Template4 M_Run S_Run P_Run1 S_Blocks.
Import ListNotations.
Open Scope list_scope.

(** ** What is shown *)
Lemma render_leaves : forall a, render a = flat_map to_str (flat_map leaves a).
Proof. intros a. unfold render, tpl_iter. rewrite flat_iter_leaves. now rewrite <- flat_map_concat_map. Qed.
Lemma render_app : forall a b, render (a ++ b) = render a ++ render b.
Proof. intros. rewrite !render_leaves. now rewrite !flat_map_app. Qed.
Lemma render_flat1 : forall a, render [VFlat a] = render a.
Proof. intros. rewrite !render_leaves. now rewrite leaves_flat. Qed.
Lemma render_str : forall t, render [VStr t] = t.
Proof. intros. rewrite render_leaves. cbn. now rewrite app_nil_r. Qed.

(** ** Frames *)
Notation dframes := (list (frame dcode)).
Definition grows (fs fs' : dframes) : Prop := forall k x, nth_error fs k = Some x -> nth_error fs' k = Some x.
Lemma grows_refl : forall fs, grows fs fs. Proof. intros fs k x H. exact H. Qed.
Lemma grows_trans : forall a b c, grows a b -> grows b c -> grows a c. Proof. intros a b c H1 H2 k x H. auto. Qed.
Lemma grows_app : forall a b, grows a (a ++ b).
Proof. intros a b k x H. rewrite nth_error_app1; [exact H|]. apply nth_error_Some. congruence. Qed.
Lemma put_last : forall (fs : dframes) x y, put_frame (fs ++ [x]) (length fs) y = fs ++ [y].
Proof. induction fs as [|z fs IH]; intros x y; cbn [app length put_frame]; [reflexivity|]. now rewrite IH. Qed.
Lemma nth_last : forall A (l : list A) x, nth_error (l ++ [x]) (length l) = Some x.
Proof. intros. rewrite nth_error_app2, Nat.sub_diag by lia. reflexivity. Qed.

Lemma block_not_special : forall b, ~ In (block_function b) special.
Proof. intros b H. cbn in H. repeat destruct H as [H|H]; try discriminate. contradiction. Qed.
Lemma block_not_attribute : forall b, ~ In (block_function b) template_attributes.
Proof. intros b H. cbn in H. repeat destruct H as [H|H]; try discriminate. contradiction. Qed.

Section Site.
Variable py : python.
Variable context : list (str * value).
Variable pages : list page.
Variable c0 : cls (fobj dcode) (str * dcode).
Variable ps : list (cls (fobj dcode) (str * dcode)).
Notation cs := (c0 :: ps).
Notation ctx := (@objects dcode context).
Notation isl := (is_layout pages).
Notation builtins := (fun k => option_map (@val dcode) (builtin_value py k)).
Definition layoutb (i : nat) : bool := Nat.eqb (S i) (length pages).
Hypothesis Len : length pages = length cs.
Hypothesis Reads : reads_blocks py pages.
Hypothesis Context : user_context py context.
Hypothesis Apart : names_apart cs.
Hypothesis Desc : forall i pg c, nth_error pages i = Some pg -> nth_error cs i = Some c -> describes (layoutb i) pg c.
Definition Loads (load : bool -> str -> result (cls (fobj dcode) (str * dcode))) : Prop := forall i pg c, nth_error pages i = Some pg -> nth_error cs (S i) = Some c -> load false (pg_extends pg) = Ok c.

(** ** The chain *)
Lemma Cs : Forall (a_class _ _) cs.
Proof. apply Forall_forall. intros c H. apply (na_classes _ Apart c H). Qed.
Lemma Pbase : Forall (fun c => plain _ _ (base_globals _ _ c)) cs.
Proof. apply Forall_forall. intros c H. apply (na_classes _ Apart c H). Qed.
Lemma keys_objects : keys ctx = map fst context.
Proof. unfold keys, objects. now rewrite map_map. Qed.
Lemma Ctx : a_dict ctx.
Proof. unfold a_dict. rewrite keys_objects. apply (uc_object _ _ Context). Qed.
Lemma Pctx : plain _ _ ctx.
Proof. intros k v H. unfold objects in H. apply in_map_iff in H as ([k' v'] & E & _). cbn in E. assert (v = val v') by congruence. now subst. Qed.
Lemma ctx_unknown : forall k, (forall v, ~ In (k, v) context) -> unknown k ctx.
Proof. intros k H I1. rewrite keys_objects in I1. apply in_map_iff in I1 as ([k' v] & E & I1). cbn in E. subst. now apply (H v). Qed.
Lemma ctx_reserved : forall k, In k [L "self"; L "local"] -> unknown k ctx.
Proof.
  intros k H I1. rewrite keys_objects in I1. destruct (uc_object _ _ Context) as [_ F]. rewrite Forall_forall in F. apply (F k I1).
  destruct H as [<-|[<-|[]]]; [right; now left|now left].
Qed.
Lemma alone_k : forall k, In k [L "self"; L "local"] -> leaves_alone _ _ k cs ctx.
Proof.
  intros k H. split; [now apply ctx_reserved|]. apply Forall_forall. intros c Hc. apply (na_others _ Apart c k Hc).
  destruct H as [<-|[<-|[]]]; [now left|right; now left].
Qed.
Lemma Self : leaves_alone _ _ (L "self") cs ctx. Proof. apply alone_k. now left. Qed.
Lemma Local : leaves_alone _ _ (L "local") cs ctx. Proof. apply alone_k. right. now left. Qed.
Lemma block_unknown : forall b, unknown (block_function b) ctx.
Proof. intros b. apply ctx_unknown. intros v H. apply (uc_variables _ _ Context) in H as (_ & _ & _ & _ & H). now apply (H b). Qed.

Lemma page_class : forall i pg, nth_error pages i = Some pg -> exists c, nth_error cs i = Some c.
Proof.
  intros i pg H. destruct (nth_error cs i) eqn:E; [now eexists|]. apply nth_error_None in E. assert (i < length pages) by (apply nth_error_Some; congruence). lia.
Qed.
Lemma class_page : forall i c, nth_error cs i = Some c -> exists pg, nth_error pages i = Some pg.
Proof.
  intros i pg H. destruct (nth_error pages i) eqn:E; [now eexists|]. apply nth_error_None in E. assert (i < length cs) by (apply nth_error_Some; congruence). lia.
Qed.
Notation defines := (defines (fobj dcode) (str * dcode) cs).
Definition block_def (j : nat) (b : str) (its : list item) : str * dcode := (block_function b ++ L "()", block_code (layoutb j) b its).
Lemma defines_block : forall i b f, defines i (block_function b) f <-> exists pg its, nth_error pages i = Some pg /\ In (b, its) (pg_blocks pg) /\ f = block_def i b its.
Proof.
  intros i b f. split.
  - intros (c & Ec & I1). destruct (class_page i c Ec) as (pg & Ep). destruct (proj1 (de_blocks _ _ _ (Desc i pg c Ep Ec) b f) I1) as (its & I2 & Ef). exists pg, its; auto.
  - intros (pg & its & Ep & I1 & ->). destruct (page_class i pg Ep) as (c & Ec). exists c. split; [exact Ec|]. apply (de_blocks _ _ _ (Desc i pg c Ep Ec)). now exists its.
Qed.
Lemma nearest_inherited : forall b i j its, nearest pages b i j its -> inherited_from cs i (block_function b) (block_def j b its) j /\ j < length pages /\
  exists pg, nth_error pages j = Some pg /\ In (b, its) (pg_blocks pg).
Proof.
  intros b i j its Hn. induction Hn as [i pg its Ep I1|i pg j its Ep N1 Hn' (IH1 & IH2 & IH3)].
  - split; [|split; [apply nth_error_Some; congruence|now exists pg]]. split; [lia|]. split; [|lia]. apply defines_block. now exists pg, its.
  - split; [|now split]. destruct IH1 as (Le & D & Nd). split; [lia|]. split; [exact D|]. intros m' H1 H2. destruct (Nat.eq_dec m' i) as [->|Ne]; [|apply Nd; lia].
    intros f F. apply defines_block in F as (pg' & its' & Ep' & I1 & _). assert (pg' = pg) by congruence. subst. apply N1. apply in_map_iff. now exists (b, its').
Qed.

(** ** The layout has been reached *)
Section Reached.
Variable h : heap (fobj dcode) (str * dcode).
Hypothesis Inv : inv _ _ cs ctx h (length ps).
Lemma reached_length : length h = length pages.
Proof. destruct Inv as [E _]. rewrite E, Len. reflexivity. Qed.

Lemma tpl_inherited : forall b i j its g, nearest pages b i j its -> getattr _ _ h i (block_function b) = Ok g ->
  (exists k f, k <= S i /\ defines k (block_function b) f) ->
  tpl_callable py h g = Ok (block_function b ++ L "()", block_code (layoutb j) b its, j, []).
Proof.
  intros b i j its g Ne Eg Ex. destruct (nearest_inherited b i j its Ne) as (In1 & Lj & _). assert (Le := proj1 In1).
  rewrite Len in Lj. cbn [length] in Lj.
  destruct (attribute_inherited _ _ builtins c0 ps ctx Cs Ctx Self Local Pctx Pbase h Inv (block_function b) (block_unknown b) (block_not_special b)
    (block_not_attribute b) (j - i) i _ j ltac:(lia) ltac:(lia) In1 Ex) as (g' & Eg' & Tg).
  assert (g' = g) by congruence. subst g'. unfold tpl_callable. rewrite (Tg (S (length h))); [reflexivity|]. rewrite reached_length, Len. cbn [length]. lia.
Qed.
Lemma has_attr : forall b i j its, nearest pages b i j its -> (exists k f, k <= S i /\ defines k (block_function b) f) -> exists g, getattr _ _ h i (block_function b) = Ok g.
Proof.
  intros b i j its Ne Ex. destruct (nearest_inherited b i j its Ne) as (In1 & Lj & _). assert (Le := proj1 In1).
  rewrite Len in Lj. cbn [length] in Lj.
  destruct (attribute_inherited _ _ builtins c0 ps ctx Cs Ctx Self Local Pctx Pbase h Inv (block_function b) (block_unknown b) (block_not_special b)
    (block_not_attribute b) (j - i) i _ j ltac:(lia) ltac:(lia) In1 Ex) as (g' & Eg' & Tg). now exists g'.
Qed.

(** The frame of a function. *)
Definition frame_ok (i : nat) (inside : option str) (fr : frame dcode) : Prop :=
  match inside with
  | Some b => if layoutb i then fr_names fr = [] else
      fr_names fr = [L "parent_block"] /\ exists g, get (L "parent_block") (fr_vars fr) = Some (GFun _ _ g) /\ getattr _ _ h (S i) (block_function b) = Ok g /\
        exists f, defines i (block_function b) f
  | None => fr_names fr = []
  end.
Lemma lookup_global : forall i inside fs f fr x, nth_error fs f = Some fr -> frame_ok i inside fr -> x <> L "parent_block" ->
  lookup py (World h fs) (Place i [f]) x = M_Template.resolve _ _ builtins h i x.
Proof.
  intros i inside fs f fr x En Ok1 Nx. unfold lookup. cbn [w_frames w_heap p_scopes p_inst find_name]. rewrite En.
  assert (E : smem x (fr_names fr) = false).
  { destruct inside as [b|]; cbn [frame_ok] in Ok1; [destruct (layoutb i)|]; [now rewrite Ok1| |now rewrite Ok1].
    destruct Ok1 as [-> _]. apply smem_notIn. intros [E|[]]. congruence. }
  now rewrite E.
Qed.
Lemma at_most : forall i pg, nth_error pages i = Some pg -> i <= length ps.
Proof. intros i pg H. assert (i < length pages) by (apply nth_error_Some; congruence). rewrite Len in *. cbn [length] in *. lia. Qed.
Lemma local_here : forall i, i <= length ps -> get (L "local") (globals _ _ h i) = Some (GInst _ _ i).
Proof. intros i Hi. apply (template_relatives _ _ c0 ps ctx Cs Ctx Self Local h Inv i Hi). Qed.
Lemma gettext_here : forall i, i <= length ps -> get (L "gettext") (globals _ _ h i) = Some (GGettext _ _).
Proof.
  intros i Hi. apply (template_names _ _ c0 ps ctx Cs Ctx Pctx Pbase h Inv); [exact Hi|intros H; cbn in H; repeat destruct H as [H|H]; try discriminate; contradiction|].
  assert (U : unknown (L "gettext") ctx). { apply ctx_unknown. intros v H. apply (uc_variables _ _ Context) in H as (_ & _ & _ & H & _). congruence. }
  apply vi_helper; [exact U| | |apply he_gettext].
  - intros j _ f (c & Ec & I1). apply nth_error_In in Ec. destruct (na_others _ Apart c (L "gettext") Ec) as [N1 _]; [right; right; now left|].
    apply N1. apply in_map_iff. now exists (L "gettext", f).
  - unfold base_of. destruct (nth_error cs i) as [c|] eqn:Ec; [|intros []]. apply nth_error_In in Ec.
    apply (na_others _ Apart c (L "gettext") Ec). right; right; now left.
Qed.
Lemma variable_here : forall i x v, i <= length ps -> In (x, v) context -> get x (globals _ _ h i) = Some (val v).
Proof.
  intros i x v Hi H. apply (template_names _ _ c0 ps ctx Cs Ctx Pctx Pbase h Inv); [exact Hi|apply (uc_variables _ _ Context x v H)|].
  apply vi_context. unfold objects. apply in_map_iff. now exists (x, v).
Qed.

(** What running code gives: what is shown, and more frames. *)
Definition gives (m : meant) (t : str) (fs : dframes) : Prop := exists vs fs', m = Ok (vs, World h fs') /\ render vs = t /\ grows fs fs'.
Definition items_run (i : nat) (inside : option str) (its : list item) (t : str) : Prop :=
  exists d0, forall d, d0 <= d -> forall load fs f fr, nth_error fs f = Some fr -> frame_ok i inside fr ->
  gives (means py load (apply py load d) (Place i [f]) (map item_stm its) (World h fs)) t fs.
Definition block_runs (j : nat) (b : str) (its : list item) (t : str) : Prop :=
  exists d0, forall d, d0 <= d -> forall load fs,
  gives (apply py load d (block_function b ++ L "()", block_code (layoutb j) b its, j, []) [] (World h fs)) t fs.

Lemma gives_then : forall m f t1 t2 fs, gives m t1 fs -> (forall fs', grows fs fs' -> gives (f (World h fs')) t2 fs') -> gives (then_ m f) (t1 ++ t2) fs.
Proof.
  intros m f t1 t2 fs (vs & fs' & -> & E & G) H. destruct (H fs' G) as (vs2 & fs2 & E2 & R2 & G2). unfold then_. cbn [rbind fst snd]. rewrite E2. cbn [rmap fst snd].
  exists (vs ++ vs2), fs2. split; [reflexivity|]. split; [now rewrite render_app, E, R2|]. now apply (grows_trans _ fs').
Qed.
Lemma gives_item : forall i inside it its t1 t2, 
  (exists d0, forall d, d0 <= d -> forall load fs f fr, nth_error fs f = Some fr -> frame_ok i inside fr ->
     gives (meaning py load (apply py load d) (Place i [f]) (item_stm it) (World h fs)) t1 fs) ->
  items_run i inside its t2 -> items_run i inside (it :: its) (t1 ++ t2).
Proof.
  intros i inside it its t1 t2 (d1 & H1) (d2 & H2). exists (d1 + d2). intros d Hd load fs f fr En Ok1. cbn [map means].
  apply gives_then; [apply (H1 d ltac:(lia) load fs f fr En Ok1)|]. intros fs' G. apply (H2 d ltac:(lia) load fs' f fr); [now apply G|exact Ok1].
Qed.
Lemma items_code_run : forall i inside its t, items_run i inside its t ->
  exists d0, forall d, d0 <= d -> forall load fs f fr, nth_error fs f = Some fr -> frame_ok i inside fr ->
  gives (means py load (apply py load d) (Place i [f]) (items_code its) (World h fs)) t fs.
Proof.
  intros i inside [|it its] t (d0 & H); [|exists d0; exact H]. exists d0. intros d Hd load fs f fr En Ok1. destruct (H d Hd load fs f fr En Ok1) as (vs & fs' & E & R & G).
  exists [VStr []], fs. cbn [map means] in E. assert (vs = [] /\ fs' = fs) as [-> ->] by (split; congruence). split; [reflexivity|]. split; [|apply grows_refl]. rewrite <- R. reflexivity.
Qed.

Lemma binds_items : forall its, flat_map (binds py) (items_code its) = [].
Proof.
  assert (H : forall its, flat_map (binds py) (map item_stm its) = []).
  { induction its as [|it its IH]; [reflexivity|]. cbn [map flat_map]. rewrite IH. now destruct it. }
  intros its. unfold items_code. destruct its as [|it its]; [reflexivity|]. cbn [map or_pass]. exact (H (it :: its)).
Qed.
Lemma python_block : forall b pg its, In pg pages -> In (b, its) (pg_blocks pg) ->
  python_of py [L "parent_block=parent." ++ block_function b] = [PySet (L "parent_block") (EAttr (L "parent") (block_function b))].
Proof. intros b pg its H1 H2. unfold python_of. rewrite <- (rb_set _ _ Reads pg b its H1 H2). reflexivity. Qed.

Lemma run_block_function : forall j b its t pg, nth_error pages j = Some pg -> In (b, its) (pg_blocks pg) -> has_parent pages b j ->
  items_run j (Some b) its t -> block_runs j b its t.
Proof.
  intros j b its t pg Ep I1 Hp R. destruct (items_code_run j (Some b) its t R) as (d0 & H). exists (S d0). intros [|d] Hd load fs; [lia|].
  cbn [apply map app w_frames w_heap]. destruct (layoutb j) eqn:El; cbn [block_code].
  - rewrite binds_items. destruct (H d ltac:(lia) load (fs ++ [Frame [] []]) (length fs) (Frame [] [])) as (vs & fs' & E & Rv & G); [apply nth_last|cbn [frame_ok]; rewrite El; reflexivity|].
    exists vs, fs'. split; [exact E|]. split; [exact Rv|]. apply (grows_trans _ (fs ++ [Frame [] []])); [apply grows_app|exact G].
  - assert (Ip : In pg pages) by now apply nth_error_In in Ep.
    cbn [flat_map binds means]. rewrite (python_block b pg its Ip I1). cbn [flat_map pystm_names app]. rewrite binds_items.
    cbn [meaning]. rewrite (python_block b pg its Ip I1). cbn [run_block eval].
    assert (Lk : lookup py (World h (fs ++ [Frame [L "parent_block"] []])) (Place j [length fs]) (L "parent") = Ok (GInst _ _ (S j))).
    { unfold lookup. cbn [w_frames w_heap p_scopes p_inst find_name]. rewrite nth_last. cbn [fr_names].
      change (smem (L "parent") [L "parent_block"]) with false. cbv iota. unfold M_Template.resolve.
      rewrite (proj1 (proj2 (proj2 (template_relatives _ _ c0 ps ctx Cs Ctx Self Local h Inv j (at_most j pg Ep))))); [reflexivity|].
      assert (j < length pages) by (apply nth_error_Some; congruence). unfold layoutb in El. apply Nat.eqb_neq in El. rewrite Len in *. cbn [length] in *. lia. }
    rewrite Lk. cbn [rbind]. destruct Hp as [Hp|(m & its' & Nm)]; [unfold is_layout in Hp; unfold layoutb in El; rewrite <- Hp, Nat.eqb_refl in El; discriminate|].
    assert (Dj : defines j (block_function b) (block_def j b its)) by (apply defines_block; now exists pg, its).
    destruct (has_attr b (S j) m its' Nm) as (g & Eg); [exists j, (block_def j b its); split; [lia|exact Dj]|].
    unfold method. cbn [w_heap]. rewrite Eg. cbn [rmap rbind]. unfold set_name. cbn [p_scopes w_frames w_heap]. rewrite nth_last, put_last. cbn [fr_names fr_vars set].
    unfold then_. cbn [rbind fst snd].
    destruct (H d ltac:(lia) load (fs ++ [Frame [L "parent_block"] [(L "parent_block", GFun _ _ g)]]) (length fs) (Frame [L "parent_block"] [(L "parent_block", GFun _ _ g)]))
      as (vs & fs' & E & Rv & G); [apply nth_last| |].
    { cbn [frame_ok]. rewrite El. cbn [fr_names fr_vars]. split; [reflexivity|]. exists g. split; [reflexivity|]. split; [exact Eg|]. now exists (block_def j b its). }
    rewrite E. cbn [rmap fst snd app]. exists vs, fs'. split; [reflexivity|]. split; [exact Rv|]. eapply grows_trans; [apply grows_app|exact G].
Qed.
Lemma call_block : forall j b its t pg, nth_error pages j = Some pg -> In (b, its) (pg_blocks pg) -> block_runs j b its t ->
  exists d0, forall d, d0 <= d -> forall load fs, exists v fs',
  call_function py (apply py load d) (block_function b ++ L "()", block_code (layoutb j) b its, j, []) [] (World h fs) = Ok (v, World h fs') /\
  render [escape v] = t /\ grows fs fs'.
Proof.
  intros j b its t pg Ep I1 (d0 & H). exists d0. intros d Hd load fs. destruct (H d Hd load fs) as (vs & fs' & E & R & G).
  unfold call_function. cbn [fst]. unfold bind_args. cbn [map]. rewrite (rb_function _ _ Reads pg b its); [|now apply nth_error_In in Ep|exact I1].
  cbn [rbind map rseq]. rewrite E. cbn [rmap fst snd]. exists (VFlat vs), fs'. split; [reflexivity|]. split; [|exact G]. cbn [escape]. now rewrite render_flat1.
Qed.

Lemma text_runs : forall i inside its t, text_of py context pages i inside its t -> i <= length ps -> items_run i inside its t.
Proof.
  intros i inside its t H. induction H as [i inside|i inside w l t H IH|i inside w l t Bl H IH|i inside w l t Bl H IH|i inside x v l t Hx H IH
    |i inside b j its l t1 t2 Li Ne Hp H1 IH1 H2 IH2|i b j its l t1 t2 Li Ne Hp H1 IH1 H2 IH2]; intros Hi.
  - exists 0. intros d _ load fs f fr _ _. exists [], fs. split; [reflexivity|]. split; [reflexivity|apply grows_refl].
  - apply gives_item; [|now apply IH]. exists 0. intros d _ load fs f fr _ _. exists [VStr w], fs. split; [reflexivity|]. split; [apply render_str|apply grows_refl].
  - apply gives_item; [|now apply IH]. exists 0. intros d _ load fs f fr _ _. exists [VStr w], fs. cbn [item_stm meaning]. unfold under. cbn [truthy_guard]. rewrite Bl.
    split; [reflexivity|]. split; [apply render_str|apply grows_refl].
  - apply gives_item; [|now apply IH]. exists 0. intros d _ load fs f fr En Ok1. exists [gettext py w], fs. cbn [item_stm meaning]. unfold under. cbn [truthy_guard].
    destruct (strip w) as [|c0' w'] eqn:Es; [contradiction|]. unfold translate, instance.
    rewrite (lookup_global i inside fs f fr (L "local") En Ok1) by discriminate. unfold M_Template.resolve. rewrite local_here by exact Hi. cbn [rbind as_instance w_heap].
    rewrite gettext_here by exact Hi. split; [reflexivity|]. split; [reflexivity|apply grows_refl].
  - apply gives_item; [|now apply IH]. exists 0. intros d _ load fs f fr En Ok1. exists [escape v], fs. cbn [item_stm meaning]. unfold show_value.
    destruct (uc_variables _ _ Context x v Hx) as (Px & _ & Nx & _). rewrite Px. unfold evalue. rewrite Px. cbn [eval].
    rewrite (lookup_global i inside fs f fr x En Ok1 Nx). unfold M_Template.resolve. rewrite (variable_here i x v Hi Hx). cbn [rmap as_value val fst snd].
    split; [reflexivity|]. split; [reflexivity|apply grows_refl].
  - destruct (nearest_inherited b 0 j its Ne) as (Inh & Lj & pg & Ep & I1). assert (Hj := at_most j pg Ep).
    destruct (call_block j b its t1 pg Ep I1 (run_block_function j b its t1 pg Ep I1 Hp (IH1 Hj))) as (d0 & Hc).
    apply gives_item; [|now apply IH2]. exists d0. intros d Hd load fs f fr En Ok1. cbn [item_stm meaning]. unfold show_value.
    assert (Ip : In pg pages) by now apply nth_error_In in Ep. rewrite (rb_call _ _ Reads pg b its Ip I1). cbn [find_callee].
    assert (Nb : block_function b <> L "parent_block") by discriminate.
    rewrite (lookup_global i inside fs f fr _ En Ok1 Nb). unfold M_Template.resolve.
    assert (Gb : get (block_function b) (globals _ _ h i) = Some (function_of _ _ (block_def j b its) j)).
    { apply (template_names _ _ c0 ps ctx Cs Ctx Pctx Pbase h Inv); [exact Hi|apply block_not_special|]. apply vi_function; [apply block_unknown|].
      destruct Inh as (_ & D & Nd). split; [unfold is_layout in Li; lia|]. split; [exact D|]. intros i' Hi'. apply Nd; lia. }
    rewrite Gb. cbn [function_of rbind w_heap]. unfold function_of, block_def. cbv iota. unfold tpl_callable. cbn [target f_code f_inst rmap fst snd rbind eval_args].
    destruct (Hc d Hd load fs) as (v & fs' & E & R & G). rewrite E. cbn [rmap fst snd]. exists [escape v], fs'. split; [reflexivity|]. split; [exact R|exact G].
  - destruct (nearest_inherited b (S i) j its Ne) as (Inh & Lj & pg & Ep & I1). assert (Hj := at_most j pg Ep).
    destruct (call_block j b its t1 pg Ep I1 (run_block_function j b its t1 pg Ep I1 Hp (IH1 Hj))) as (d0 & Hc).
    apply gives_item; [|now apply IH2]. exists d0. intros d Hd load fs f fr En Ok1. cbn [item_stm meaning]. unfold show_value.
    rewrite (rb_parent _ _ Reads). cbn [find_callee].
    cbn [frame_ok] in Ok1. unfold layoutb in Ok1. assert (El : (S i =? length pages) = false) by (apply Nat.eqb_neq; exact Li). rewrite El in Ok1.
    destruct Ok1 as (Nf & g & Gv & Ga & f' & Df). unfold lookup. cbn [w_frames w_heap p_scopes p_inst find_name]. rewrite En, Nf.
    change (smem (L "parent_block") [L "parent_block"]) with true. cbv iota. rewrite Gv. cbn [rbind].
    rewrite (tpl_inherited b (S i) j its g Ne Ga) by (exists i, f'; split; [lia|exact Df]). cbn [rmap rbind eval_args].
    destruct (Hc d Hd load fs) as (v & fs' & E & R & G). rewrite E. cbn [rmap fst snd]. exists [escape v], fs'. split; [reflexivity|]. split; [exact R|exact G].
Qed.
End Reached.

(** ** Reaching it *)
Definition main_def (i : nat) (pg : page) : str * dcode := (L "__main__()", main_code (layoutb i) pg).
Lemma main_here : forall h i pg, inv _ _ cs ctx h i -> nth_error pages i = Some pg ->
  main_of py h i = Ok (L "__main__()", main_code (layoutb i) pg, i, []).
Proof.
  intros h i pg [Lh Hi] Ep. destruct (page_class i pg Ep) as (c & Ec). destruct (Hi i (le_n i)) as (_ & _ & _ & A).
  assert (D : defines i (L "__main__") (main_def i pg)) by (exists c; split; [exact Ec|apply (de_main _ _ _ (Desc i pg c Ep Ec))]).
  apply (defines_at _ _ cs Cs Pbase) in D. unfold main_of, getattr. rewrite A, Nat.ltb_irrefl, get_bound, D. reflexivity.
Qed.
Lemma bind_main : bind_args py (code := dcode) (L "__main__()") [] = Ok [].
Proof. unfold bind_args. cbn [map]. rewrite (rb_main _ _ Reads). reflexivity. Qed.
Lemma binds_main : forall l pg, flat_map (binds py) (main_code l pg) = [].
Proof.
  intros [|] pg; cbn [main_code]; [apply binds_items|]. cbn [flat_map binds app]. destruct (pg_main pg) as [|it its] eqn:E; [reflexivity|]. exact (binds_items (it :: its)).
Qed.
Lemma main_runs : forall i t, page_text py context pages i t -> forall h pg, inv _ _ cs ctx h i -> nth_error pages i = Some pg ->
  exists h' d0, inv _ _ cs ctx h' (length ps) /\ forall d, d0 <= d -> forall load fs, Loads load -> exists vs fs',
    apply py load d (L "__main__()", main_code (layoutb i) pg, i, []) [] (World h fs) = Ok (vs, World h' fs') /\ render vs = t /\ grows fs fs'.
Proof.
  intros i t H. induction H as [i pg0 t Ep Li Ht|i pg0 t t' Ep H IH Ht]; intros h pg Inv Ep'; assert (pg0 = pg) by congruence; subst pg0.
  - assert (Ei : i = length ps) by (unfold is_layout in Li; rewrite Len in Li; cbn [length] in Li; lia). rewrite Ei in Inv.
    assert (Hi : i <= length ps) by lia.
    destruct (items_code_run h i None _ _ (text_runs h Inv i None _ _ Ht Hi)) as (d0 & R).
    exists h, (S d0). split; [exact Inv|]. intros [|d] Hd load fs Hl; [lia|]. cbn [apply map app w_frames w_heap].
    rewrite binds_main. assert (El : layoutb i = true) by (unfold layoutb; apply Nat.eqb_eq; exact Li). rewrite El. cbn [main_code].
    destruct (R d ltac:(lia) load (fs ++ [Frame [] []]) (length fs) (Frame [] [])) as (vs & fs' & E & Rv & G); [apply nth_last|reflexivity|].
    exists vs, fs'. split; [exact E|]. split; [exact Rv|]. eapply grows_trans; [apply grows_app|exact G].
  - assert (Hn : exists pg1, nth_error pages (S i) = Some pg1) by (destruct H as [? pg1 ? E1|? pg1 ? ? E1]; now exists pg1).
    destruct Hn as (pg1 & Ep1). destruct (page_class (S i) pg1 Ep1) as (c1 & Ec1).
    destruct (chain_step _ _ builtins cs ctx (self0 _ _ c0 ps ctx Cs Ctx Self) (local0 _ _ c0 ps ctx Cs Ctx Local) h i c1 Inv Ec1) as (h1 & E1 & Inv1).
    destruct (IH h1 pg1 Inv1 Ep1) as (h' & d1 & Inv' & R1).
    assert (Hi : i <= length ps) by (apply (at_most i pg Ep)).
    destruct (text_runs h' Inv' i None _ _ Ht Hi) as (d2 & R2).
    exists h', (S (d1 + d2)). split; [exact Inv'|]. intros [|d] Hd load fs Hl; [lia|]. cbn [apply map app w_frames w_heap].
    rewrite binds_main. assert (El : layoutb i = false).
    { unfold layoutb. apply Nat.eqb_neq. assert (S i < length pages) by (apply nth_error_Some; congruence). lia. }
    rewrite El. cbn [main_code means meaning].
    unfold exec_extend in E1. unfold extend_template, instance.
    assert (Lk : lookup py (World h (fs ++ [Frame [] []])) (Place i [length fs]) (L "local") = M_Template.resolve _ _ builtins h i (L "local")).
    { unfold lookup. cbn [w_frames w_heap p_scopes p_inst find_name]. rewrite nth_last. reflexivity. }
    rewrite Lk. cbn [w_heap w_frames]. destruct (M_Template.resolve _ _ builtins h i (L "local")) as [v|e] eqn:Er; cbn [rbind] in E1 |- *; [|discriminate].
    destruct (as_instance _ _ h v) as [k|e] eqn:Ek; cbn [rbind] in E1 |- *; [|discriminate].
    rewrite (Hl i pg c1 Ep Ec1). cbn [rbind]. rewrite E1. cbn [rmap rbind fst snd w_heap]. rewrite (main_here h1 (S i) pg1 Inv1 Ep1). cbn [rbind].
    unfold show_call, call_function. cbn [fst]. rewrite bind_main. cbn [rbind].
    destruct (R1 d ltac:(lia) load (fs ++ [Frame [] []]) Hl) as (vs & fs1 & E2 & Rv & G). rewrite E2. cbn [rmap fst snd]. unfold then_. cbn [rbind fst snd].
    destruct (R2 d ltac:(lia) load fs1 (length fs) (Frame [] [])) as (vs2 & fs2 & E3 & Rv2 & G2); [apply G; apply nth_last|reflexivity|].
    rewrite E3. cbn [rmap fst snd]. exists ([VFlat vs] ++ vs2), fs2. split; [reflexivity|]. split; [now rewrite render_app, render_flat1, Rv, Rv2|].
    eapply grows_trans; [apply grows_app|]. eapply grows_trans; [exact G|exact G2].
Qed.
Theorem site_renders : forall t, page_text py context pages 0 t -> exists d0, forall d load, d0 <= d -> Loads load -> template_means py load d c0 ctx = Ok t.
Proof.
  intros t H. assert (Hn : exists pg, nth_error pages 0 = Some pg) by (destruct H as [? pg ? E1|? pg ? ? E1]; now exists pg). destruct Hn as (pg & Ep).
  assert (St := start _ _ c0 ps ctx). unfold template_means. destruct (new _ _ [] c0 (Given _ _ ctx)) as [h i] eqn:En.
  assert (Ei : i = 0) by (unfold new in En; cbn [length] in En; congruence). subst i. cbn [fst] in St. 
  destruct (main_runs 0 t H h pg St Ep) as (h' & d0 & _ & R). exists d0. intros d load Hd Hl. rewrite (main_here h 0 pg St Ep). cbn [rbind].
  unfold call_function. cbn [fst]. rewrite bind_main. cbn [rbind]. destruct (R d Hd load [] Hl) as (vs & fs' & E & Rv & _). rewrite E. cbn [rmap fst snd]. now rewrite render_flat1, Rv.
Qed.
End Site.
