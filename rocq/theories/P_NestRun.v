(** * Proofs: the instances and variables of templates whose output is properly nested *)

From Coq Require Import Ascii String List Arith NArith ZArith Bool Lia.
From Verif Require Import PyStr PyStrLemmas M_Values S_Values M_IR S_IR M_Template S_Template P_Template M_Text M_XText M_Dom S_XFun M_Run S_Run S_XRun
  S_Markup P_Markup S_Nested P_Nested S_NestRun.
From Verif Require M_Exec.
Import ListNotations.
Open Scope list_scope.

Section Inv.
Variable py : python.
Variable html : bool.
Variable F : str -> Prop.
Variable const : str -> option M_Values.value.
Notation safe := (S_Nested.safe html).
Notation safe_rstm := (safe_rstm py html F const).
Notation safe_decl := (safe_decl py html F const).
Notation free_name := (free_name F const).
Notation wr := (nested_text html).
Notation dfun := (tplfun (str * dcode)).
Notation ddict := (dict (fobj dcode) (str * dcode)).
Notation dheap := (heap (fobj dcode) (str * dcode)).
Notation dcls := (cls (fobj dcode) (str * dcode)).
Notation main := (L "__main__").

(** ** Code that shows properly nested markup *)
Definition attr_piece (s : rstm) : Prop := match s with RText _ _ | RTrans _ _ | RExpr _ _ => True | _ => False end.
Definition tag_attr (g : option str) (s : rstm) : Prop :=
  (exists k v mode, s = RAttr k v g mode /\ legal_name k /\ Forall attr_piece v) \/ exists x mode, s = RAttrs x g mode.
Inductive nested : list rstm -> Prop :=
| nn_nil : nested []
| nn_app : forall a b, nested a -> nested b -> nested (a ++ b)
| nn_pass : nested [RPass]
| nn_text : forall t g, wr t -> nested [RText t g]
| nn_trans : forall t g v, written_text v t -> nested [RTrans t g]
| nn_expr : forall x, nested [RExpr x false]
| nn_if : forall c b els, nested b -> nested els -> nested [RIf c b els]
| nn_for : forall d b els, nested b -> nested els -> nested [RFor d b els]
| nn_with : forall vars b, nested b -> nested [RWith vars b]
| nn_switch : forall d els, nested els -> nested [RSwitch d [] els]
| nn_case : forall d c b cases els, nested b -> nested [RSwitch d cases els] -> nested [RSwitch d ((c, b) :: cases) els]
| nn_def : forall d b, nested b -> nested [RDef d b]
| nn_call : forall d c b, nested b -> nested [RCall d c b]
| nn_import : forall t a, nested [RImport t a]
| nn_include : forall t, nested [RInclude t]
| nn_python : forall lines, nested [RPython lines]
| nn_element : forall g tag A content fin, steady_run py const g -> Forall (tag_attr g) A -> nested content ->
    (forall a s body, written_attrs a s -> wr body -> wr (L "<" ++ tag ++ s ++ L ">" ++ body ++ fin)) ->
    nested (RText (L "<" ++ tag) g :: A ++ RText (L ">") g :: content ++ [RText fin g])
| nn_empty : forall g tag A fin, steady_run py const g -> Forall (tag_attr g) A ->
    (forall a s, written_attrs a s -> wr (L "<" ++ tag ++ s ++ fin)) ->
    nested (RText (L "<" ++ tag) g :: A ++ [RText fin g])
| nn_open_else : forall g c tag A els content fin, truthy_guard g = Some c -> steady_run py const g -> Forall (tag_attr g) A -> nested els -> nested content ->
    (forall a s body, written_attrs a s -> wr body -> wr (L "<" ++ tag ++ s ++ L ">" ++ body ++ fin)) ->
    nested (RText (L "<" ++ tag) g :: A ++ RIf c [RText (L ">") None] els :: content ++ [RText fin g])
| nn_raw : forall tag A ss fin, Forall (tag_attr None) A -> Forall (raw_run py html const) ss ->
    (forall a s body, written_attrs a s -> fits html body -> wr (L "<" ++ tag ++ s ++ L ">" ++ body ++ fin)) ->
    nested (RText (L "<" ++ tag) None :: A ++ RText (L ">") None :: ss ++ [RText fin None])
| nn_section : forall a ss b, Forall (raw_run py html const) ss -> (forall body, fits html body -> wr (a ++ body ++ b)) ->
    nested (RText a None :: ss ++ [RText b None])
| nn_else : forall a t g c els, nested (a ++ [RText t g]) -> truthy_guard g = Some c -> nested els ->
    nested (a ++ [RIf c [RText t None] els]).
(** The main function: a doctype, or what is extended, may come first. *)
Definition a_line (line : str) : Prop := exists mode dtd, S_XDoc.doctype_line mode dtd line.
Inductive page : list rstm -> Prop :=
| pg_nested : forall b, nested b -> page b
| pg_line : forall line b, a_line line -> nested b -> page (RText line None :: b)
| pg_extend : forall t b, nested b -> page (RExtend t :: b).
Definition page_text (s : str) : Prop := exists line s', s = line ++ s' /\ (line = [] \/ a_line line) /\ wr s'.

Lemma wr_nil : wr [].
Proof. apply P_Nested.wr_nil. Qed.
Lemma wr_app : forall a b, wr a -> wr b -> wr (a ++ b).
Proof. apply P_Nested.wr_app. Qed.

(** ** Values, instances *)
Definition code_ok (d : str) (b : list rstm) : Prop := safe_decl d /\ nested b /\ Forall safe_rstm b.
Definition fun_ok (n : nat) (f : dfun) : Prop :=
  f_inst _ f < n /\ match f_code _ f with Code _ c => code_ok (fst c) (snd c) | Trampoline _ k => k <> main end.
Definition gval_ok (n : nat) (v : dval) : Prop :=
  match v with
  | GObj _ _ (RV v) => safe v
  | GObj _ _ (RC d b i _) => code_ok d b /\ i < n
  | GInst _ _ i => i < n
  | GFun _ _ f => fun_ok n f
  | GLiteral _ _ => False
  | _ => True
  end.
(** A function or a template, or what cannot be called. *)
Definition funlike (v : dval) : Prop :=
  match v with
  | GFun _ _ _ | GInst _ _ _ | GBuiltins _ _ | GKajiki _ _ | GObj _ _ (RC _ _ _ _) => True
  | _ => False
  end.
Definition no_object (v : dval) : Prop := match v with GObj _ _ (RV _) => False | _ => True end.
Definition var_ok (n : nat) (k : str) (v : dval) : Prop := gval_ok n v /\ (F k -> funlike v).
Definition entry_ok (n : nat) (k : str) (v : dval) : Prop :=
  (gval_ok n v \/ v = GLiteral _ _ /\ In k showing_all \/ k = main /\ exists f, v = GFun _ _ f /\ f_inst _ f < n) /\
  (k = L "gettext" -> no_object v) /\ (F k -> funlike v).
Definition dict_ok (n : nat) (d : ddict) : Prop := Forall (fun kv => entry_ok n (fst kv) (snd kv)) d.
Definition attrs_ok (n : nat) (a : list (str * dfun)) : Prop :=
  Forall (fun kf => f_inst _ (snd kf) < n /\ (fst kf <> main -> fun_ok n (snd kf))) a.
Definition has_constants (d : ddict) : Prop := forall k v, const k = Some v -> get k d = Some (val v).
Definition context_ok (n : nat) (c : context (fobj dcode) (str * dcode)) : Prop :=
  match c with Given _ _ d => dict_ok 0 d /\ has_constants d /\ a_dict d | GlobalsOf _ _ i => i < n end.
Definition inst_ok (n : nat) (x : inst (fobj dcode) (str * dcode)) : Prop :=
  dict_ok n (i_globals _ _ x) /\ attrs_ok n (i_attrs _ _ x) /\ context_ok n (i_context _ _ x) /\ has_constants (i_globals _ _ x) /\ a_dict (i_globals _ _ x).
Definition heap_ok (h : dheap) : Prop := Forall (inst_ok (length h)) h.
Definition class_ok (c : dcls) : Prop :=
  Forall (fun kf => fst kf <> main -> code_ok (fst (snd kf)) (snd (snd kf))) (methods _ _ c) /\ dict_ok 0 (base_globals _ _ c).
(** The main function of a class. *)
Definition main_ok (fragment : bool) (c : dcls) : Prop :=
  forall d b, get main (methods _ _ c) = Some (d, b) -> safe_decl d /\ Forall safe_rstm b /\ (if fragment then nested b else page b).

Lemma fun_ok_le : forall n m f, n <= m -> fun_ok n f -> fun_ok m f.
Proof. intros n m f Le [H1 H2]. split; [lia|exact H2]. Qed.
Lemma gval_ok_le : forall n m v, n <= m -> gval_ok n v -> gval_ok m v.
Proof.
  intros n m v Le H. destruct v as [[v|d b i ss]|i|f|i|i| | | |]; cbn [gval_ok] in *; try exact H; try lia.
  - destruct H as [H1 H2]. split; [exact H1|lia].
  - now apply (fun_ok_le n).
Qed.
Lemma var_ok_le : forall n m k v, n <= m -> var_ok n k v -> var_ok m k v.
Proof. intros n m k v Le [H1 H2]. split; [now apply (gval_ok_le n)|exact H2]. Qed.
Lemma entry_ok_le : forall n m k v, n <= m -> entry_ok n k v -> entry_ok m k v.
Proof.
  intros n m k v Le (H1 & H2 & H3). split; [|now split]. destruct H1 as [H1|[H1|(E & f & -> & Hf)]]; [left; now apply (gval_ok_le n)|right; now left|].
  right. right. split; [exact E|]. exists f. split; [reflexivity|lia].
Qed.
Lemma dict_ok_le : forall n m d, n <= m -> dict_ok n d -> dict_ok m d.
Proof. intros n m d Le H. eapply Forall_impl; [|exact H]. intros kv. now apply entry_ok_le. Qed.
Lemma attrs_ok_le : forall n m a, n <= m -> attrs_ok n a -> attrs_ok m a.
Proof. intros n m a Le H. eapply Forall_impl; [|exact H]. intros kf [H1 H2]. split; [lia|]. intros N0. apply (fun_ok_le n); [exact Le|now apply H2]. Qed.
Lemma inst_ok_le : forall n m x, n <= m -> inst_ok n x -> inst_ok m x.
Proof.
  intros n m x Le (H1 & H2 & H3 & H4). split; [now apply (dict_ok_le n)|]. split; [now apply (attrs_ok_le n)|]. split; [|exact H4].
  destruct (i_context _ _ x); cbn [context_ok] in *; [exact H3|lia].
Qed.

(** ** Dictionaries *)
Lemma forall_set : forall A (P : str * A -> Prop) k v d, P (k, v) -> Forall P d -> Forall P (set k v d).
Proof.
  intros A P k v d Hv H. induction H as [|[k' v'] d H0 H IH]; cbn [set]; [now repeat constructor|]. destruct (seqb k k'); constructor; assumption.
Qed.
Lemma forall_update : forall n (d' d : ddict), dict_ok n d -> dict_ok n d' -> dict_ok n (update _ _ d d').
Proof.
  intros n d' d Hd Hd'. unfold update. revert d Hd. induction Hd' as [|[k v] d' H0 H IH]; intros d Hd; [exact Hd|]. cbn [fold_left]. apply IH. apply forall_set; assumption.
Qed.
Lemma forall_get : forall n d k v, dict_ok n d -> get k d = Some v -> entry_ok n k v.
Proof. intros n d k v H E. apply get_some_in in E. unfold dict_ok in H. rewrite Forall_forall in H. exact (H _ E). Qed.
Lemma constants_set : forall k v d, has_constants d -> const k = None -> has_constants (set k v d).
Proof. intros k v d H E k' v' E'. rewrite get_set. destruct (seqb_spec k' k) as [->|Ne]; [congruence|now apply H]. Qed.

Hypothesis Fh : forall k, F k -> ~ In k helper_names.
Hypothesis Co : forall k v, const k = Some v -> ~ In k own_names.
Lemma own_constant : forall k, In k own_names -> const k = None.
Proof. intros k I1. destruct (const k) as [v|] eqn:E; [|reflexivity]. now destruct (Co k v E). Qed.
Lemma helper_function : forall k (P : Prop), In k helper_names -> F k -> P.
Proof. intros k P I1 Hk. now destruct (Fh k Hk). Qed.

Lemma helpers_ok : forall i n, i < n -> dict_ok n (helpers (fobj dcode) (str * dcode) i).
Proof.
  intros i n Hi. unfold helpers, dict_ok. repeat (apply Forall_cons; [|]); try apply Forall_nil; unfold entry_ok; cbn [fst snd gval_ok no_object funlike].
  all: split; [|split; [intros _; exact Logic.I|]].
  all: try (left; first [exact Hi|exact Logic.I]). all: try (intros _; exact Logic.I).
  all: try (right; left; split; [reflexivity|cbn; tauto]).
  all: intros Hk; eapply helper_function; [|exact Hk]; cbn; tauto.
Qed.
Lemma methods_dict : forall i n (ms : list (str * (str * dcode))), i < n ->
  Forall (fun kf => fst kf <> main -> code_ok (fst (snd kf)) (snd (snd kf))) ms ->
  dict_ok n (map (fun kf => (fst kf, GFun _ _ (snd kf))) (bound _ i ms)) /\ attrs_ok n (bound _ i ms).
Proof.
  intros i n ms Hi H. induction H as [|[k [d b]] ms H0 H [IH1 IH2]]; [split; constructor|]. cbn [fst snd] in H0. split.
  - constructor; [|exact IH1]. cbn [fst snd]. split; [|split; intros _; exact Logic.I]. destruct (seqb_spec k main) as [->|Ne].
    + right. right. split; [reflexivity|]. eexists. split; [reflexivity|exact Hi].
    + left. split; [exact Hi|]. exact (H0 Ne).
  - constructor; [|exact IH2]. cbn [fst snd]. split; [exact Hi|]. intros Ne. split; [exact Hi|]. exact (H0 Ne).
Qed.
Lemma init_ok : forall i n c ctx, i < n -> class_ok c -> dict_ok n ctx -> has_constants ctx -> a_dict ctx ->
  dict_ok n (init_globals _ _ i c ctx) /\ has_constants (init_globals _ _ i c ctx) /\ a_dict (init_globals _ _ i c ctx).
Proof.
  intros i n c ctx Hi [Hm Hb] Hc Kc Dc.
  assert (E : dict_ok n (update _ _ (update _ _ (update _ _ (helpers _ _ i) (base_globals _ _ c)) (map (fun kf => (fst kf, GFun _ _ (snd kf))) (bound _ i (methods _ _ c)))) ctx)).
  { apply forall_update; [|exact Hc]. apply forall_update; [|now apply methods_dict]. apply forall_update; [now apply helpers_ok|]. apply (dict_ok_le 0); [lia|exact Hb]. }
  split; [|split].
  - unfold init_globals. apply forall_set.
    + cbn [fst snd]. split; [left; exact Logic.I|]. split; [discriminate|]. intros Hk. eapply helper_function; [|exact Hk]. cbn; tauto.
    + destruct (get (L "gettext") _) as [v|] eqn:Eg; [|exact E]. apply forall_set; [|exact E]. cbn [fst snd]. destruct (forall_get _ _ _ _ E Eg) as (H1 & H2 & H3). split; [|split; [discriminate|]].
      * left. destruct H1 as [H1|[[_ H1]|[H1 _]]]; [exact H1| |discriminate]. cbn in H1. intuition discriminate.
      * intros Hk. eapply helper_function; [|exact Hk]. cbn; tauto.
  - intros k v Ek. specialize (Kc k v Ek). unfold init_globals. rewrite get_set. pose proof (Co k v Ek) as No. cbn in No.
    destruct (seqb_spec k (L "value_of")) as [->|_]; [exfalso; apply No; tauto|].
    match goal with |- get k (match ?x with Some _ => _ | None => _ end) = _ => destruct x end; rewrite ?get_set; (destruct (seqb_spec k (L "_")) as [->|_]; [exfalso; apply No; tauto|]) || idtac; rewrite get_update by exact Dc; now rewrite Kc.
  - apply init_dict.
Qed.

(** ** The heap *)
Lemma forall_put : forall (P : inst (fobj dcode) (str * dcode) -> Prop) h i x, Forall P h -> P x -> Forall P (put _ _ h i x).
Proof. intros P h i x H Hx. revert i. induction H as [|y h H0 H IH]; intros i; [constructor|]. destruct i; cbn [put]; constructor; auto. Qed.
Lemma heap_nth : forall h i x, heap_ok h -> nth_error h i = Some x -> inst_ok (length h) x.
Proof. intros h i x H E. unfold heap_ok in H. rewrite Forall_forall in H. apply H. now apply nth_error_In in E. Qed.
Lemma globals_ok : forall h i, heap_ok h -> dict_ok (length h) (globals _ _ h i).
Proof. intros h i H. unfold globals. destruct (nth_error h i) as [x|] eqn:E; [|constructor]. now destruct (heap_nth h i x H E). Qed.
Lemma globals_constants : forall h i, heap_ok h -> i < length h -> has_constants (globals _ _ h i) /\ a_dict (globals _ _ h i).
Proof. intros h i H Hi. unfold globals. destruct (nth_error h i) as [x|] eqn:E; [|apply nth_error_None in E; lia]. destruct (heap_nth h i x H E) as (_ & _ & _ & K). exact K. Qed.
Lemma attrs_heap : forall h i, heap_ok h -> attrs_ok (length h) (attrs _ _ h i).
Proof. intros h i H. unfold attrs. destruct (nth_error h i) as [x|] eqn:E; [|constructor]. destruct (heap_nth h i x H E) as (_ & A & _). exact A. Qed.
Lemma with_globals_ok : forall h i d, heap_ok h -> dict_ok (length h) d -> (i < length h -> has_constants d /\ a_dict d) -> heap_ok (with_globals _ _ h i d).
Proof.
  intros h i d H Hd K. unfold heap_ok. rewrite length_with. unfold with_globals. destruct (nth_error h i) as [x|] eqn:E; [|exact H].
  apply forall_put; [exact H|]. destruct (heap_nth h i x H E) as (_ & A & C & _). assert (i < length h) by (apply nth_error_Some; congruence). split; [exact Hd|]. split; [exact A|]. split; [exact C|]. now apply K.
Qed.
Lemma set_global_ok : forall h i k v, heap_ok h -> entry_ok (length h) k v -> const k = None -> heap_ok (with_globals _ _ h i (set k v (globals _ _ h i))).
Proof.
  intros h i k v H Hv Ck. apply with_globals_ok; [exact H|apply forall_set; [exact Hv|now apply globals_ok]|]. intros Hi. destruct (globals_constants h i H Hi) as [K D].
  split; [now apply constants_set|now apply set_dict].
Qed.
Lemma with_attrs_ok : forall h i a, heap_ok h -> attrs_ok (length h) a -> heap_ok (with_attrs _ _ h i a).
Proof.
  intros h i a H Ha. unfold heap_ok. rewrite length_attrs. unfold with_attrs. destruct (nth_error h i) as [x|] eqn:E; [|exact H].
  apply forall_put; [exact H|]. destruct (heap_nth h i x H E) as (G & _ & C & K). split; [exact G|]. split; [exact Ha|]. now split.
Qed.
Lemma context_dict : forall h c, heap_ok h -> context_ok (length h) c ->
  dict_ok (length h) (context_of _ _ h c) /\ has_constants (context_of _ _ h c) /\ a_dict (context_of _ _ h c).
Proof.
  intros h c H Hc. destruct c as [d|i]; cbn [context_ok context_of] in *; [destruct Hc as [Hd K]; split; [apply (dict_ok_le 0); [lia|exact Hd]|exact K]|].
  split; [now apply globals_ok|now apply globals_constants].
Qed.
Lemma new_ok : forall h c ctx, heap_ok h -> class_ok c -> context_ok (length h) ctx ->
  heap_ok (fst (new _ _ h c ctx)) /\ length (fst (new _ _ h c ctx)) = S (length h) /\ snd (new _ _ h c ctx) = length h.
Proof.
  intros h c ctx H Hc Hx. unfold new. cbn [fst snd]. assert (Ln : length (h ++ [Inst _ _ c ctx (init_globals _ _ (length h) c (context_of _ _ h ctx)) (bound _ (length h) (methods _ _ c))]) = S (length h)) by (rewrite app_length; cbn [length]; lia).
  split; [|split; [exact Ln|reflexivity]]. unfold heap_ok. rewrite Ln. apply Forall_app. split.
  - eapply Forall_impl; [|exact H]. intros x. apply inst_ok_le. lia.
  - constructor; [|constructor]. destruct (context_dict h ctx H Hx) as (Dx & Kx & Nx).
    destruct (init_ok (length h) (S (length h)) c (context_of _ _ h ctx) ltac:(lia) Hc (dict_ok_le (length h) (S (length h)) _ ltac:(lia) Dx) Kx Nx) as (I1 & I2 & I3). split; [exact I1|]. cbn [i_globals i_attrs i_context].
    split; [apply methods_dict; [lia|apply Hc]|]. split; [|now split]. destruct ctx; cbn [context_ok] in *; [exact Hx|lia].
Qed.

(** ** Functions *)
Lemma getattr_ok : forall h i k f, heap_ok h -> getattr _ _ h i k = Ok f -> k <> main -> fun_ok (length h) f.
Proof.
  intros h i k f H E Nk. unfold getattr in E. destruct (get k (attrs _ _ h i)) as [f'|] eqn:Eg; [|discriminate]. injection E as ->. apply get_some_in in Eg.
  pose proof (attrs_heap h i H) as A. unfold attrs_ok in A. rewrite Forall_forall in A. destruct (A _ Eg) as [_ A']. now apply A'.
Qed.
Definition callable_ok (n : nat) (c : callable dcode) : Prop := code_ok (fst (fst (fst c))) (snd (fst (fst c))) /\ snd (fst c) < n.
Lemma target_ok : forall builtin fuel h f c i, heap_ok h -> fun_ok (length h) f -> target _ _ builtin fuel h f = Ok (c, i) -> code_ok (fst c) (snd c) /\ i < length h.
Proof.
  intros builtin. induction fuel as [|fuel IH]; intros h f c i H [Hi Hf] E; cbn [target] in E; destruct (f_code _ f) as [c'|k]; try discriminate.
  - injection E as -> <-. now split.
  - injection E as -> <-. now split.
  - destruct (resolve _ _ _ h (f_inst _ f) (L "parent")) as [v|]; [|discriminate]. cbn [rbind] in E. destruct (as_instance _ _ h v) as [p|]; [|discriminate]. cbn [rbind] in E.
    destruct (getattr _ _ h p k) as [f'|] eqn:Eg; [|discriminate]. cbn [rbind] in E. apply (IH h f' c i H); [|exact E]. now apply (getattr_ok h p k).
Qed.
Lemma tpl_callable_ok : forall h f c, heap_ok h -> fun_ok (length h) f -> tpl_callable py h f = Ok c -> callable_ok (length h) c.
Proof.
  intros h f c H Hf E. unfold tpl_callable in E. destruct (target _ _ _ (S (length h)) h f) as [[[d b] i]|] eqn:Et; [|discriminate]. cbn [rmap fst snd] in E. injection E as <-. exact (target_ok _ _ h f (d, b) i H Hf Et).
Qed.
Lemma method_ok : forall h i k f, heap_ok h -> method h i k = Ok f -> k <> main -> fun_ok (length h) f.
Proof. intros h i k f H E Nk. unfold method in E. destruct (getattr _ _ h i k) as [f'|] eqn:Eg; [apply (getattr_ok h i k f H); congruence|]. destruct (smem k template_attributes); discriminate. Qed.

(** ** Other templates *)
Lemma overrides_ok : forall n d, dict_ok n d -> dict_ok n (overrides _ _ d).
Proof. intros n d H. unfold overrides, dict_ok in *. rewrite Forall_forall in *. intros kv I1. apply filter_In in I1. now apply H. Qed.
Lemma overrides_constants : forall d d', has_constants d -> a_dict d -> has_constants d' -> has_constants (update _ _ d' (overrides _ _ d)) .
Proof.
  intros d d' K D K' k v E. assert (D' : a_dict (overrides _ _ d)).
  { clear - D. unfold a_dict, keys, overrides in *. induction d as [|[k v] d IH]; [constructor|]. apply NoDup_cons_iff in D. destruct D as [N0 D]. cbn [filter map fst]. destruct (_ && _); [|now apply IH].
    cbn [map fst]. constructor; [|now apply IH]. intros I1. apply N0. apply in_map_iff in I1. destruct I1 as (kv & Ek & I1). apply filter_In in I1. apply in_map_iff. exists kv. now split. }
  rewrite get_update by exact D'. destruct (get k (overrides _ _ d)) as [v'|] eqn:Eo; [|now apply K']. exfalso. apply get_some_in in Eo. unfold overrides in Eo. apply filter_In in Eo. destruct Eo as [I1 Ef].
  apply (proj2 (get_in _ _ _ _ D)) in I1. rewrite (K k v E) in I1. injection I1 as <-. cbn [fst snd val is_fun] in Ef. now rewrite andb_false_r in Ef.
Qed.
Lemma inherit_ok : forall i h kv, heap_ok h -> i < length h -> entry_ok (length h) (fst kv) (snd kv) -> (forall v, const (fst kv) = Some v -> snd kv = val v) ->
  heap_ok (inherit _ _ i h kv) /\ length (inherit _ _ i h kv) = length h.
Proof.
  intros i h [k v] H Hi Hv Kv. cbn [fst snd] in *. unfold inherit. destruct (seqb k main || negb (is_fun _ _ v)) eqn:B; [now split|]. apply orb_false_iff in B. destruct B as [B1 B2].
  apply negb_false_iff in B2. assert (Nk : k <> main) by (destruct (seqb_spec k main); [discriminate|assumption]).
  assert (Ck : const k = None) by (destruct (const k) as [u|] eqn:E; [|reflexivity]; rewrite (Kv u eq_refl) in B2; discriminate).
  cbv zeta. set (h1 := if M_Template.has k (globals _ _ h i) then h else _).
  assert (H1 : heap_ok h1 /\ length h1 = length h).
  { unfold h1. destruct (M_Template.has k (globals _ _ h i)); [now split|]. split; [now apply set_global_ok|apply length_with]. }
  clearbody h1. destruct H1 as [H1 L1]. destruct (hasattr _ _ h1 i k); [now split|]. split; [|now rewrite length_attrs]. apply with_attrs_ok; [exact H1|].
  apply forall_set; [|now apply attrs_heap]. cbn [fst snd f_inst]. rewrite L1. split; [exact Hi|]. intros _. split; [exact Hi|exact Nk].
Qed.
Lemma inherits_ok : forall i l h, heap_ok h -> i < length h -> dict_ok (length h) l -> Forall (fun kv => forall v, const (fst kv) = Some v -> snd kv = val v) l ->
  heap_ok (fold_left (inherit _ _ i) l h) /\ length (fold_left (inherit _ _ i) l h) = length h.
Proof.
  intros i. induction l as [|kv l IH]; intros h H Hi Hd Kd; [now split|]. cbn [fold_left]. apply Forall_cons_iff in Hd. destruct Hd as [Hv Hd]. apply Forall_cons_iff in Kd. destruct Kd as [Kv Kd].
  destruct (inherit_ok i h kv H Hi Hv Kv) as [H1 L1]. destruct (IH (inherit _ _ i h kv) H1) as [H2 L2]; [lia|unfold dict_ok; now rewrite L1|exact Kd|]. split; [exact H2|congruence].
Qed.
Lemma extend_ok : forall h i c h' p, heap_ok h -> class_ok c -> extend _ _ h i c = Ok (h', p) ->
  heap_ok h' /\ length h <= length h' /\ p < length h' /\ attrs _ _ h' p = bound _ p (methods _ _ c).
Proof.
  intros h i c h' p H Hc E. unfold extend in E. destruct (nth_error h i) as [x|] eqn:Ei; [|discriminate]. assert (Hi : i < length h) by (apply nth_error_Some; congruence).
  destruct (heap_nth h i x H Ei) as (_ & _ & Cx & _). destruct (new_ok h c (i_context _ _ x) H Hc Cx) as (N1 & N2 & N3).
  pose proof (attrs_new _ _ h c (i_context _ _ x) (length h)) as Ap. rewrite Nat.eqb_refl in Ap.
  destruct (new _ _ h c (i_context _ _ x)) as [h1 p1] eqn:En. cbn [fst snd] in *. subst p1.
  set (h2 := with_globals _ _ h1 (length h) (update _ _ (globals _ _ h1 (length h)) (overrides _ _ (globals _ _ h1 i)))) in *.
  assert (L2 : length h2 = S (length h)) by (unfold h2; now rewrite length_with).
  assert (H2 : heap_ok h2).
  { apply with_globals_ok; [exact N1|apply forall_update; [now apply globals_ok|apply overrides_ok; now apply globals_ok]|]. intros _.
    destruct (globals_constants h1 i N1 ltac:(lia)) as [Ki Di]. destruct (globals_constants h1 (length h) N1 ltac:(lia)) as [Kp Dp]. split; [now apply overrides_constants|now apply update_dict]. }
  assert (A2 : attrs _ _ h2 (length h) = bound _ (length h) (methods _ _ c)) by (unfold h2; now rewrite attrs_with).
  clearbody h2. set (h3 := fold_left (inherit _ _ i) (globals _ _ h2 (length h)) h2) in *.
  assert (H3 : heap_ok h3 /\ length h3 = length h2).
  { apply inherits_ok; [exact H2|lia|now apply globals_ok|]. apply Forall_forall. intros [k v] I1 u Eu. cbn [fst snd] in *.
    destruct (globals_constants h2 (length h) H2 ltac:(lia)) as [Kp Dp]. apply (proj2 (get_in _ _ _ _ Dp)) in I1. rewrite (Kp k u Eu) in I1. congruence. }
  assert (A3 : attrs _ _ h3 (length h) = attrs _ _ h2 (length h)).
  { unfold h3. generalize (globals _ _ h2 (length h)). intros l. clear - Hi. assert (Ne : i <> length h) by lia. revert h2. induction l as [|[k v] l IH]; intros h2; [reflexivity|]. cbn [fold_left]. rewrite IH. unfold inherit.
    destruct (_ || _); [reflexivity|]. set (h4 := if M_Template.has k (globals _ _ h2 i) then h2 else _). assert (E4 : attrs _ _ h4 (length h) = attrs _ _ h2 (length h)) by (unfold h4; destruct (M_Template.has k _); [reflexivity|apply attrs_with]).
    destruct (hasattr _ _ h4 i k); [exact E4|]. rewrite <- E4. unfold attrs, with_attrs. destruct (nth_error h4 i) as [y|] eqn:Ey; [|reflexivity]. rewrite nth_put. destruct (Nat.eqb_spec i (length h)); [lia|reflexivity]. }
  destruct H3 as [H3 L3]. clearbody h3. rewrite A2 in A3.
  assert (St : forall h j k v, heap_ok h -> In k own_names -> k <> L "_" -> k <> L "value_of" -> (exists m, v = GInst _ _ m /\ m < length h) -> heap_ok (with_globals _ _ h j (set k v (globals _ _ h j)))).
  { intros h0 j k v H0 Ik N5 N6 (m & -> & Hm). apply set_global_ok; [exact H0| |now apply own_constant]. split; [left; exact Hm|]. split; intros _; exact Logic.I. }
  cbv zeta in E. set (h5 := with_globals _ _ (with_globals _ _ h3 (length h) _) (length h) _) in E.
  assert (H5 : heap_ok h5).
  { unfold h5. apply St; [|cbn; tauto|discriminate|discriminate|exists (length h); split; [reflexivity|rewrite length_with; lia]]. apply St; [exact H3|cbn; tauto|discriminate|discriminate|exists i; split; [reflexivity|lia]]. }
  assert (L5 : length h5 = S (length h)) by (unfold h5; rewrite !length_with; lia).
  assert (A5 : attrs _ _ h5 (length h) = bound _ (length h) (methods _ _ c)) by (unfold h5; rewrite !attrs_with; exact A3). clearbody h5.
  destruct (get (L "self") (globals _ _ h5 i)) as [s|] eqn:Es; [|discriminate]. injection E as <- <-. rewrite !length_with, !attrs_with, A5, L5.
  split; [|split; [lia|split; [lia|reflexivity]]].
  assert (H6 : heap_ok (with_globals _ _ h5 (length h) (set (L "self") s (globals _ _ h5 (length h))))).
  { apply set_global_ok; [exact H5| |apply own_constant; cbn; tauto]. exact (forall_get _ _ _ _ (globals_ok h5 i H5) Es). }
  apply St; [|cbn; tauto|discriminate|discriminate|exists i; split; [reflexivity|rewrite !length_with; lia]].
  apply St; [exact H6|cbn; tauto|discriminate|discriminate|exists (length h); split; [reflexivity|rewrite !length_with; lia]].
Qed.
Lemma import_ok : forall h name alias c g, heap_ok h -> class_ok c -> g < length h -> const (alias_name name alias) = None ->
  let hr := import_ _ _ h name alias c g in
  heap_ok (fst hr) /\ length h <= length (fst hr) /\ snd hr < length (fst hr) /\ attrs _ _ (fst hr) (snd hr) = bound _ (snd hr) (methods _ _ c).
Proof.
  intros h name alias c g H Hc Hg Ca. unfold import_. fold (alias_name name alias). destruct (new_ok h c (GlobalsOf _ _ g) H Hc Hg) as (N1 & N2 & N3). pose proof (attrs_new _ _ h c (GlobalsOf _ _ g) (length h)) as Ap. rewrite Nat.eqb_refl in Ap.
  destruct (new _ _ h c (GlobalsOf _ _ g)) as [h1 r]. cbn [fst snd] in *. subst r. rewrite length_with, attrs_with. split; [|split; [lia|split; [lia|exact Ap]]].
  apply set_global_ok; [exact N1| |exact Ca]. split; [left; cbn [gval_ok]; lia|]. split; intros _; exact Logic.I.
Qed.
End Inv.
