(** * Proofs: properly nested output, running functions *)

From Coq Require Import Ascii String List Arith NArith ZArith Bool Lia.
From Verif Require Import PyStr PyStrLemmas M_Values S_Values P_Values M_IR S_IR M_Template S_Template P_Template M_Text M_XText M_Dom S_XFun M_Run S_Run S_XRun
  P_Run4 P_Run5 P_Run11 S_Markup P_Markup S_Nested P_Nested P_Raw S_NestRun P_NestRun P_NestRun2.
From Verif Require M_Exec P_Exec.
Import ListNotations.
Open Scope list_scope.

Section Run.
Variable py : python.
Variable html : bool.
Variable F : str -> Prop.
Variable const : str -> option M_Values.value.
Hypothesis Fh : forall k, F k -> ~ In k helper_names.
Hypothesis Co : forall k v, const k = Some v -> ~ In k own_names.
Hypothesis G : gentle_python py html F.
Notation safe := (S_Nested.safe html).
Notation safe_rstm := (safe_rstm py html F const).
Notation safe_decl := (safe_decl py html F const).
Notation safe_expr := (safe_expr html).
Notation free_name := (free_name F const).
Notation wr := (nested_text html).
Notation page_text := (page_text html).
Notation main := (L "__main__").
Notation gval_ok := (gval_ok py html F const).
Notation var_ok := (var_ok py html F const).
Notation heap_ok := (heap_ok py html F const).
Notation callable_ok := (callable_ok py html F const).
Notation code_ok := (code_ok py html F const).
Notation nested := (nested py html const).
Notation page := (page py html const).
Notation world_ok := (world_ok py html F const).
Notation grows := (grows py html F const).
Notation params_ok := (params_ok py html F const).
Notation class_ok := (class_ok py html F const).
Notation main_ok := (main_ok py html F const).

(** ** Safe statements *)
Lemma safe_all : forall l, (fix go (l : list rstm) : Prop := match l with [] => True | m :: l' => safe_rstm m /\ go l' end) l <-> Forall safe_rstm l.
Proof. induction l as [|s l IH]; [split; [constructor|trivial]|]. rewrite Forall_cons_iff, IH. reflexivity. Qed.
Lemma safe_cases : forall l, (fix go (l : list (str * list rstm)) : Prop := match l with [] => True | (_, b) :: l' =>
   (fix go (l : list rstm) : Prop := match l with [] => True | m :: l' => safe_rstm m /\ go l' end) b /\ go l' end) l <-> Forall (fun cb => Forall safe_rstm (snd cb)) l.
Proof. induction l as [|[c b] l IH]; [split; [constructor|trivial]|]. rewrite Forall_cons_iff, IH, safe_all. reflexivity. Qed.
Lemma safe_if : forall c b els, safe_rstm (RIf c b els) <-> Forall safe_rstm b /\ Forall safe_rstm els.
Proof. intros. cbn [S_NestRun.safe_rstm]. now rewrite !safe_all. Qed.
Lemma safe_for : forall d b els, safe_rstm (RFor d b els) <-> (Forall free_name (fst (parse_for py d)) /\ safe_expr (snd (parse_for py d))) /\ Forall safe_rstm b /\ Forall safe_rstm els.
Proof. intros. cbn [S_NestRun.safe_rstm]. now rewrite !safe_all. Qed.
Lemma safe_with : forall vars b, safe_rstm (RWith vars b) <-> Forall (fun kx => free_name (fst kx) /\ safe_text py html (snd kx)) vars /\ Forall safe_rstm b.
Proof. intros. cbn [S_NestRun.safe_rstm]. now rewrite !safe_all. Qed.
Lemma safe_switch : forall d cases els, safe_rstm (RSwitch d cases els) <-> Forall (fun cb => Forall safe_rstm (snd cb)) cases /\ Forall safe_rstm els.
Proof. intros. cbn [S_NestRun.safe_rstm]. now rewrite safe_all, safe_cases. Qed.
Lemma safe_attr : forall a v g mode, safe_rstm (RAttr a v g mode) <-> Forall safe_rstm v.
Proof. intros. cbn [S_NestRun.safe_rstm]. now rewrite !safe_all. Qed.
Lemma safe_def : forall d b, safe_rstm (RDef d b) <-> safe_decl d /\ Forall safe_rstm b.
Proof. intros. cbn [S_NestRun.safe_rstm]. now rewrite !safe_all. Qed.
Lemma safe_call : forall d c b, safe_rstm (RCall d c b) <-> safe_decl d /\ safe_text py html c /\ calls_template py F c /\ Forall safe_rstm b.
Proof. intros. cbn [S_NestRun.safe_rstm]. now rewrite !safe_all. Qed.

(** Safe statements bind no constants. *)
Lemma forall_flat_map : forall A B (P : B -> Prop) (f : A -> list B) l, Forall (fun x => Forall P (f x)) l -> Forall P (flat_map f l).
Proof. intros A B P f l H. induction H; [constructor|]. cbn [flat_map]. apply Forall_app. now split. Qed.
Lemma forall_both : forall A (P Q : A -> Prop) l, Forall (fun x => P x -> Q x) l -> Forall P l -> Forall Q l.
Proof. intros A P Q l H HP. induction H; [constructor|]. apply Forall_cons_iff in HP. destruct HP. constructor; auto. Qed.
Lemma binds_free : forall s, safe_rstm s -> Forall (fun x => const x = None) (binds py s).
Proof.
  assert (All : forall l, Forall (fun s => safe_rstm s -> Forall (fun x => const x = None) (binds py s)) l -> Forall safe_rstm l -> Forall (fun x => const x = None) (flat_map (binds py) l)).
  { intros l H S. apply forall_flat_map. now apply (forall_both _ _ _ _ H). }
  assert (Free : forall xs, Forall free_name xs -> Forall (fun x => const x = None) xs) by (intros xs H; eapply Forall_impl; [|exact H]; intros x [_ E]; exact E).
  induction s as [ |t g|t g|x s|c b els Hb He|d b els Hb He|v b Hb|d cs els Hc He|a v g m Hv|x g m|d b Hb|d c b Hb|t a|t|t|l] using rstm_ind'; intros S; cbn [binds]; rewrite ?binds_cases, ?binds_all; try constructor; try exact (Forall_nil _).
  - apply safe_if in S. apply Forall_app. split; apply All; tauto.
  - apply safe_for in S. destruct S as [[S1 _] [S2 S3]]. rewrite !Forall_app. repeat split; [now apply Free|now apply All|now apply All].
  - apply safe_with in S. destruct S as [S1 S2]. apply Forall_app. split; [|now apply All]. apply Free. apply Forall_map. eapply Forall_impl; [|exact S1]. intros kx [H _]. exact H.
  - apply safe_switch in S. destruct S as [S1 S2]. apply Forall_app. split; [|now apply All]. apply forall_flat_map.
    apply (forall_both _ (fun cb => Forall safe_rstm (snd cb))); [|exact S1]. eapply Forall_impl; [|exact Hc]. intros [c b] H. now apply All.
  - apply safe_def in S. destruct S as [[S _] _]. exact S.
  - apply safe_call in S. destruct S as [[S _] _]. exact S.
  - cbn [S_NestRun.safe_rstm] in S. apply forall_flat_map. eapply Forall_impl; [|exact S]. intros [x e|xs ys f] H; cbn [safe_pystm pystm_names] in *; [constructor; [apply H|constructor]|apply Free; apply H].
Qed.

(** ** Showing *)
Variable load : bool -> str -> result (cls (fobj dcode) (str * dcode)).
Hypothesis Hload : forall fragment name c, load fragment name = Ok c -> class_ok c /\ main_ok fragment c.
Variable invoke : callable dcode -> list (str * dval) -> dworld -> meant.
Definition shows (b : list rstm) (w w' : dworld) (o : list M_Values.value) : Prop :=
  (nested b -> grows w w' /\ wr (render o)) /\ (page b -> grows w w' /\ page_text (render o)) /\ (Forall attr_piece b -> grows w w').
Definition invokes (invoke : callable dcode -> list (str * dval) -> dworld -> meant) : Prop :=
  forall c params w o w', world_ok w -> snd (fst c) < size w -> params_ok (size w) params -> Forall safe_rstm (snd (fst (fst c))) ->
    invoke c params w = Ok (o, w') -> shows (snd (fst (fst c))) w w' o.
Hypothesis Hinv : invokes invoke.
Variable p : place.
Notation meaning := (meaning py load invoke p).
Notation means := (means py load invoke p).
Notation under := (under py p).
Definition stays (w : dworld) : Prop := world_ok w /\ p_inst p < size w.
Lemma stays_grows : forall w w', stays w -> grows w w' -> stays w'.
Proof. intros w w' [H1 H2] [H3 H4]. split; [exact H3|lia]. Qed.
Lemma grown : forall w w', world_ok w' -> w_heap w' = w_heap w -> grows w w'.
Proof. intros w w' H E. split; [exact H|]. unfold size. rewrite E. lia. Qed.

Lemma render_flat : forall o, render [VFlat o] = render o.
Proof.
  intros o. unfold render, tpl_iter, flat_iter. cbn [flat_map]. rewrite app_nil_r. cbn [flat_item].
  assert (Q : forall v, ~ In VNone (flat_item v)).
  { intros v. induction v; cbn [flat_item]; try (intros [X|[]]; discriminate X); try (intros []). intros I1. apply filter_In in I1. destruct I1 as [_ X]. discriminate X. }
  f_equal. f_equal.
  assert (E : forall l, (forall v, In v l -> v <> VNone) -> filter (fun v => match v with VNone => false | _ => true end) l = l).
  { clear. induction l as [|x l IH]; intros H; [reflexivity|]. cbn [filter]. rewrite IH by (intros v I1; apply H; now right). destruct x; try reflexivity. now destruct (H VNone (or_introl eq_refl)). }
  rewrite E; [reflexivity|]. intros v I1 ->. apply in_flat_map in I1. destruct I1 as (u & _ & I1). now apply (Q u).
Qed.
Lemma call_function_ok : forall c args w v w', stays w -> callable_ok (size w) c -> Forall (fun kv => gval_ok (size w) (snd kv)) args ->
  call_function py invoke c args w = Ok (v, w') -> grows w w' /\ wr (render [v]) /\ escape v = v.
Proof.
  intros [[[d b] i] ss] args w v w' [Hw _] [(Sd & Nb & Sb) Hi] Ha E. unfold call_function in E. cbn [fst snd] in *. inv_ok E. destruct a0 as [o w1]. cbn [fst snd] in E. injection E as <- <-.
  destruct (Hinv (d, b, i, ss) a w o w1 Hw Hi) as [H1 _]; [now apply (bind_args_ok py html F const (size w) d args)|exact Sb|exact E1|]. destruct (H1 Nb) as [H2 H3]. split; [exact H2|]. split; [|reflexivity]. now rewrite render_flat.
Qed.
Lemma show_value_ok : forall x w v w', stays w -> safe_text py html x -> show_value py (fun w => w) invoke p x w = Ok (v, w') -> grows w w' /\ wr (render [escape v]).
Proof.
  intros x w v w' Hs Sx E. unfold show_value in E.
  assert (Q : rmap (fun v => (v, w)) (evalue py w p x) = Ok (v, w') -> grows w w' /\ wr (render [escape v])).
  { clear E. intros E. inv_ok E. injection E as -> <-. split; [apply grows_refl; apply Hs|]. apply (evalue_ok py html F const G w p x v (proj1 Hs) Sx E0). }
  unfold safe_text in Sx. destruct (parse py x) as [| | |c args] eqn:Ep; try (apply Q; exact E). cbn [S_NestRun.safe_expr] in Sx. destruct Sx as [Sc Sa]. inv_ok E. destruct a as [t|u|u k|g]; try (apply Q; exact E). inv_ok E.
  destruct (call_function_ok t a w v w' Hs) as (H1 & H2 & H3); [exact (find_callee_ok py html F const G w p c _ (proj1 Hs) Sc E0)|exact (eval_args_ok py html F const G w p args _ (proj1 Hs) Sa E1)|exact E|].
  split; [exact H1|]. now rewrite H3.
Qed.
(** A py:call shows what a function of a template returns. *)
Lemma show_call_ok : forall x w v w', stays w -> safe_text py html x -> calls_template py F x -> show_value py (fun w => w) invoke p x w = Ok (v, w') -> grows w w' /\ wr (render [v]).
Proof.
  intros x w v w' Hs Sx (f & args & Ep & Ff) E. unfold show_value in E. unfold safe_text in Sx. rewrite Ep in E, Sx. cbn [S_NestRun.safe_expr] in Sx. destruct Sx as [Sc Sa]. inv_ok E.
  destruct a as [t|u|u k|g]; [inv_ok E| | |].
  { destruct (call_function_ok t a w v w' Hs) as (H1 & H2 & _); [exact (find_callee_ok py html F const G w p f _ (proj1 Hs) Sc E0)|exact (eval_args_ok py html F const G w p args _ (proj1 Hs) Sa E1)|exact E|]. now split. }
  all: exfalso; destruct f as [f|o f]; cbn [callee_names] in Ff; apply Forall_cons_iff in Ff; destruct Ff as [Ff _]; cbn [find_callee] in E0; inv_ok E0; pose proof (lookup_function py html F const G w p _ _ (proj1 Hs) E1 Ff) as Fl; destruct a as [[u0|d b i ss]|i|t|i|i| | | |]; try destruct Fl; inv_ok E0; discriminate E0.
Qed.
Lemma define_ok : forall d b w, stays w -> safe_decl d -> nested b -> Forall safe_rstm b -> world_ok (define p d b w) /\ w_heap (define p d b w) = w_heap w.
Proof.
  intros d b w [Hw Hp] Sd Nb Sb. unfold define. apply set_name_ok; [exact Hw|]. split; [|intros _; exact Logic.I]. cbn [P_NestRun.gval_ok]. split; [split; [exact Sd|split; [exact Nb|exact Sb]]|exact Hp].
Qed.
(** Conditions. *)
Lemma under_cases : forall g w shown o w', under g w shown = Ok (o, w') -> shown = Ok (o, w') \/ o = [] /\ w' = w.
Proof. intros g w shown o w' E. unfold S_Run.under in E. destruct (truthy_guard g) as [c|]; [|now left]. inv_ok E. destruct a; [now left|right; split; congruence]. Qed.

(** The parts of a tag. *)
Lemma render_attrs_nested : forall l mode chunks, Forall (fun kv => legal_name (fst kv) /\ (snd kv = VNone \/ S_Values.plain (snd kv))) l ->
  render_attrs l mode = Ok chunks -> exists a, written_attrs a (render (map VStr chunks)).
Proof. intros l mode chunks H E. exact (render_attrs_written mode l chunks H E). Qed.
Lemma attr_means : forall g s w o w', stays w -> tag_attr g s -> safe_rstm s -> meaning s w = Ok (o, w') ->
  grows w w' /\ (o = [] \/ exists a, written_attrs a (render o)).
Proof.
  intros g s w o w' Hs T Ss E. destruct T as [(k & v & mode & -> & Lk & Av)|(x & mode & ->)]; cbn [S_Run.meaning] in E; apply under_cases in E.
  - destruct E as [E|[-> ->]]; [|split; [apply grows_refl; apply Hs|now left]]. inv_ok E. injection E as <- <-. destruct a as [o1 w1]. cbn [fst snd] in *. apply safe_attr in Ss.
    destruct (Hinv ([], v, p_inst p, p_scopes p) [] w o1 w1 (proj1 Hs) (proj2 Hs) (Forall_nil _) Ss E0) as (_ & _ & H1). split; [now apply H1|]. right. eapply render_attrs_nested; [|exact E2].
    constructor; [|constructor]. split; [exact Lk|]. exact (collect_value _ _ E1).
  - destruct E as [E|[-> ->]]; [|split; [apply grows_refl; apply Hs|now left]]. inv_ok E. injection E as <- <-. split; [apply grows_refl; apply Hs|]. right. eapply render_attrs_nested; [|exact E1].
    unfold attributes in E0. inv_ok E0. exact (gp_attrs _ _ _ G _ _ (evalue_ok py html F const G w p x _ (proj1 Hs) Ss E) E0).
Qed.
Lemma attrs_mean : forall g A w o w', stays w -> Forall (tag_attr g) A -> Forall safe_rstm A -> means A w = Ok (o, w') -> grows w w' /\ exists a, written_attrs a (render o).
Proof.
  intros g A. induction A as [|s A IH]; intros w o w' Hs T Ss E; cbn [S_Run.means] in E.
  - injection E as <- <-. split; [apply grows_refl; apply Hs|]. exists []. constructor.
  - apply Forall_cons_iff in T. destruct T as [T0 T]. apply Forall_cons_iff in Ss. destruct Ss as [S0 Ss]. unfold then_ in E. inv_ok E. destruct a as [o1 w1], a0 as [o2 w2]. cbn [fst snd] in *. injection E as <- <-.
    destruct (attr_means g s w o1 w1 Hs T0 S0 E0) as [G1 H1]. destruct (IH w1 o2 w2 (stays_grows _ _ Hs G1) T Ss E1) as [G2 [a2 W2]]. split; [exact (grows_trans _ _ _ _ _ _ _ G1 G2)|]. rewrite P_Exec.render_app.
    destruct H1 as [->|[a1 W1]]; [now exists a2|]. exists (a1 ++ a2). now apply written_attrs_app.
Qed.
Lemma attrs_hidden : forall g c A w o w', truthy_guard g = Some c -> condition py w p c = Ok false -> Forall (tag_attr g) A -> means A w = Ok (o, w') -> render o = [] /\ w' = w.
Proof.
  intros g c A w o w' Tg B T. revert o w'. induction T as [|s A T0 T IH]; intros o w' E; cbn [S_Run.means] in E; [injection E as <- <-; now split|].
  assert (meaning s w = Ok ([], w)) as E1. { destruct T0 as [(k & v & mode & -> & _)|(x & mode & ->)]; cbn [S_Run.meaning]; unfold S_Run.under; rewrite Tg, B; reflexivity. }
  unfold then_ in E. rewrite E1 in E. inv_ok E. destruct a as [o2 w2]. cbn [fst snd app] in E. injection E as <- <-. now apply IH.
Qed.
Lemma text_means : forall g t w o w', meaning (RText t g) w = Ok (o, w') ->
  w' = w /\ (match truthy_guard g with None => render o = t | Some c => exists b, condition py w p c = Ok b /\ render o = if b then t else [] end).
Proof.
  intros g t w o w' E. cbn [S_Run.meaning] in E. unfold S_Run.under in E. destruct (truthy_guard g) as [c|].
  - destruct (condition py w p c) as [b|]; [|discriminate]. cbn [rbind] in E. destruct b; (split; [congruence|]); eexists; (split; [reflexivity|]).
    + assert (o = [VStr t]) as -> by congruence. apply render_str.
    + assert (o = []) as -> by congruence. reflexivity.
  - split; [congruence|]. assert (o = [VStr t]) as -> by congruence. apply render_str.
Qed.

Definition good (b : list rstm) : Prop := forall w o w', stays w -> Forall safe_rstm b -> means b w = Ok (o, w') -> grows w w' /\ wr (render o).
Lemma good_one : forall s, (forall w o w', stays w -> safe_rstm s -> meaning s w = Ok (o, w') -> grows w w' /\ wr (render o)) -> good [s].
Proof. intros s H w o w' Hs Ss E. rewrite means_one in E. apply Forall_cons_iff in Ss. now apply (H w o w' Hs (proj1 Ss)). Qed.
Lemma good_element : forall g tag A content fin, steady_run py const g -> Forall (tag_attr g) A -> good content ->
  (forall a s body, written_attrs a s -> wr body -> wr (L "<" ++ tag ++ s ++ L ">" ++ body ++ fin)) ->
  good (RText (L "<" ++ tag) g :: A ++ RText (L ">") g :: content ++ [RText fin g]).
Proof.
  intros g tag A content fin St T Gc H w o w' Hs Ss E. apply Forall_cons_iff in Ss. destruct Ss as [_ Ss]. apply Forall_app in Ss. destruct Ss as [SA Ss]. apply Forall_cons_iff in Ss. destruct Ss as [_ Ss]. apply Forall_app in Ss. destruct Ss as [Sc _].
  cbn [S_Run.means] in E. unfold then_ at 1 in E. inv_ok E. destruct a as [o1 w1]. cbn [fst snd] in *. rewrite means_app in E1. unfold then_ at 1 in E1. inv_ok E1. destruct a as [o2 w2]. cbn [fst snd] in *.
  cbn [S_Run.means] in E3. unfold then_ at 1 in E3. inv_ok E3. destruct a as [o3 w3]. cbn [fst snd] in *. rewrite means_app in E5. unfold then_ at 1 in E5. inv_ok E5. destruct a as [o4 w4]. cbn [fst snd] in *. rewrite means_one in E7. destruct a3 as [o5 w5]. cbn [fst snd] in *.
  injection E5 as <-. cbn [fst snd] in *. injection E3 as <-. cbn [fst snd] in *. injection E1 as <-. cbn [fst snd] in *. injection E as <- <-.
  rewrite !P_Exec.render_app. destruct (text_means _ _ _ _ _ E0) as [-> T1]. destruct (attrs_mean g A w o2 w2 Hs T SA E2) as [G2 [a W]]. pose proof (stays_grows _ _ Hs G2) as Hs2.
  destruct (text_means _ _ _ _ _ E4) as [-> T3]. destruct (Gc w2 o4 w4 Hs2 Sc E6) as [G4 W4]. pose proof (stays_grows _ _ Hs2 G4) as Hs4. destruct (text_means _ _ _ _ _ E7) as [-> T5]. split; [exact (grows_trans _ _ _ _ _ _ _ G2 G4)|].
  destruct (truthy_guard g) as [c|] eqn:Tg.
  - destruct (steady_guard py html F const g c St Tg) as [b Hb]. destruct T1 as (b1 & Q1 & ->). destruct T3 as (b3 & Q3 & ->). destruct T5 as (b5 & Q5 & ->).
    assert (b1 = b) as -> by exact (Hb w p b1 (proj1 Hs) (proj2 Hs) Q1). assert (b3 = b) as -> by exact (Hb w2 p b3 (proj1 Hs2) (proj2 Hs2) Q3). assert (b5 = b) as -> by exact (Hb w4 p b5 (proj1 Hs4) (proj2 Hs4) Q5). destruct b.
    + rewrite <- !app_assoc. now apply (H a).
    + destruct (attrs_hidden g c A w o2 w2 Tg Q1 T E2) as [-> _]. rewrite app_nil_r. exact W4.
  - rewrite T1, T3, T5. rewrite <- !app_assoc. now apply (H a).
Qed.
Lemma good_open_else : forall g c tag A els content fin, truthy_guard g = Some c -> steady_run py const g -> Forall (tag_attr g) A -> good els -> good content ->
  (forall a s body, written_attrs a s -> wr body -> wr (L "<" ++ tag ++ s ++ L ">" ++ body ++ fin)) ->
  good (RText (L "<" ++ tag) g :: A ++ RIf c [RText (L ">") None] els :: content ++ [RText fin g]).
Proof.
  intros g c tag A els content fin Tg St T Ge Gc H w o w' Hs Ss E. apply Forall_cons_iff in Ss. destruct Ss as [_ Ss]. apply Forall_app in Ss. destruct Ss as [SA Ss]. apply Forall_cons_iff in Ss. destruct Ss as [Si Ss]. apply safe_if in Si. destruct Si as [_ Si]. apply Forall_app in Ss. destruct Ss as [Sc _].
  cbn [S_Run.means] in E. unfold then_ at 1 in E. inv_ok E. destruct a as [o1 w1]. cbn [fst snd] in *. rewrite means_app in E1. unfold then_ at 1 in E1. inv_ok E1. destruct a as [o2 w2]. cbn [fst snd] in *.
  cbn [S_Run.means] in E3. unfold then_ at 1 in E3. inv_ok E3. destruct a as [o3 w3]. cbn [fst snd] in *. rewrite means_app in E5. unfold then_ at 1 in E5. inv_ok E5. destruct a as [o4 w4]. cbn [fst snd] in *. rewrite means_one in E7. destruct a3 as [o5 w5]. cbn [fst snd] in *.
  injection E5 as <-. cbn [fst snd] in *. injection E3 as <-. cbn [fst snd] in *. injection E1 as <-. cbn [fst snd] in *. injection E as <- <-.
  rewrite !P_Exec.render_app. destruct (text_means _ _ _ _ _ E0) as [-> T1]. destruct (attrs_mean g A w o2 w2 Hs T SA E2) as [G2 [a W]]. pose proof (stays_grows _ _ Hs G2) as Hs2.
  destruct (steady_guard py html F const g c St Tg) as [b Hb]. rewrite Tg in T1. destruct T1 as (b1 & Q1 & ->). assert (b1 = b) as -> by exact (Hb w p b1 (proj1 Hs) (proj2 Hs) Q1).
  rewrite meaning_if in E4. destruct (condition py w2 p c) as [b3|] eqn:Q3; [|discriminate]. cbn [rbind] in E4. assert (b3 = b) as -> by exact (Hb w2 p b3 (proj1 Hs2) (proj2 Hs2) Q3).
  assert (G3 : grows w2 w3 /\ if b then render o3 = L ">" else wr (render o3)).
  { destruct b; [|now apply (Ge w2)]. rewrite means_one in E4. destruct (text_means _ _ _ _ _ E4) as [-> T3]. split; [apply grows_refl; apply Hs2|exact T3]. }
  destruct G3 as [G3 T3]. pose proof (stays_grows _ _ Hs2 G3) as Hs3. destruct (Gc w3 o4 w4 Hs3 Sc E6) as [G4 W4]. pose proof (stays_grows _ _ Hs3 G4) as Hs4. destruct (text_means _ _ _ _ _ E7) as [-> T5].
  split; [exact (grows_trans _ _ _ _ _ _ _ G2 (grows_trans _ _ _ _ _ _ _ G3 G4))|].
  rewrite Tg in T5. destruct T5 as (b5 & Q5 & ->). assert (b5 = b) as -> by exact (Hb w4 p b5 (proj1 Hs4) (proj2 Hs4) Q5). destruct b.
  - rewrite T3. rewrite <- !app_assoc. now apply (H a).
  - destruct (attrs_hidden g c A w o2 w2 Tg Q1 T E2) as [-> _]. rewrite app_nil_r. exact (wr_app html _ _ T3 W4).
Qed.
Lemma good_empty : forall g tag A fin, steady_run py const g -> Forall (tag_attr g) A ->
  (forall a s, written_attrs a s -> wr (L "<" ++ tag ++ s ++ fin)) -> good (RText (L "<" ++ tag) g :: A ++ [RText fin g]).
Proof.
  intros g tag A fin St T H w o w' Hs Ss E. apply Forall_cons_iff in Ss. destruct Ss as [_ Ss]. apply Forall_app in Ss. destruct Ss as [SA _].
  cbn [S_Run.means] in E. unfold then_ at 1 in E. inv_ok E. destruct a as [o1 w1]. cbn [fst snd] in *. rewrite means_app in E1. unfold then_ at 1 in E1. inv_ok E1. destruct a as [o2 w2]. cbn [fst snd] in *. rewrite means_one in E3. destruct a1 as [o3 w3]. cbn [fst snd] in *.
  injection E1 as <-. cbn [fst snd] in *. injection E as <- <-.
  rewrite !P_Exec.render_app. destruct (text_means _ _ _ _ _ E0) as [-> T1]. destruct (attrs_mean g A w o2 w2 Hs T SA E2) as [G2 [a W]]. pose proof (stays_grows _ _ Hs G2) as Hs2.
  destruct (text_means _ _ _ _ _ E3) as [-> T3]. split; [exact G2|]. destruct (truthy_guard g) as [c|] eqn:Tg.
  - destruct (steady_guard py html F const g c St Tg) as [b Hb]. destruct T1 as (b1 & Q1 & ->). destruct T3 as (b3 & Q3 & ->).
    assert (b1 = b) as -> by exact (Hb w p b1 (proj1 Hs) (proj2 Hs) Q1). assert (b3 = b) as -> by exact (Hb w2 p b3 (proj1 Hs2) (proj2 Hs2) Q3). destruct b.
    + rewrite <- !app_assoc. now apply (H a).
    + destruct (attrs_hidden g c A w o2 w2 Tg Q1 T E2) as [-> _]. apply wr_nil.
  - rewrite T1, T3. rewrite <- !app_assoc. now apply (H a).
Qed.
(** Texts that are no markup. *)
Definition flat (b : list rstm) : Prop := forall w o w', stays w -> means b w = Ok (o, w') -> w' = w /\ fits html (render o).
Lemma raw_flat1 : forall s, raw_run py html const s -> flat [s].
Proof.
  intros s H w o w' Hs E. rewrite means_one in E. destruct s; try (now destruct H); cbn [raw_run] in H; cbn [S_Run.meaning] in E.
  - apply under_cases in E. destruct E as [E|[-> ->]]; [|split; [reflexivity|apply fits_nil]]. injection E as <- <-. split; [reflexivity|]. now rewrite render_str.
  - apply under_cases in E. destruct E as [E|[-> ->]]; [|split; [reflexivity|apply fits_nil]]. destruct (strip t) as [|c0 s0]; [injection E as <- <-|inv_ok E; injection E as <- <-]; (split; [reflexivity|]).
    + rewrite render_str. apply H.
    + rewrite (translate_is py html F const w p t _ (proj1 Hs) E0). apply H.
  - match goal with b : bool |- _ => destruct b; [destruct H|] end. destruct H as [Nc H]. inv_ok E. destruct a as [v w1]. cbn [fst snd] in E. injection E as <- <-. unfold show_value in E0.
    assert (Q : rmap (fun v => (v, w)) (evalue py w p x) = Ok (v, w1)) by (destruct (parse py x) as [| | |c args] eqn:Ep; try exact E0; now destruct (Nc c args)).
    clear E0. inv_ok Q. injection Q as -> <-. split; [reflexivity|]. destruct (H w p v (knows_ok py html F const w p (proj1 Hs) (proj2 Hs)) E) as [A1 A2]. now apply fits_plain.
Qed.
Lemma raw_flat : forall ss, Forall (raw_run py html const) ss -> flat ss.
Proof.
  intros ss Fs. induction Fs as [|s ss H Fs IH]; intros w o w' Hs E; [injection E as <- <-; split; [reflexivity|apply fits_nil]|].
  change (s :: ss) with ([s] ++ ss) in E. rewrite means_app in E. unfold then_ in E. inv_ok E. destruct a as [o1 w1], a0 as [o2 w2]. cbn [fst snd] in *. injection E as <- <-.
  destruct (raw_flat1 s H w o1 w1 Hs E0) as [-> F1]. destruct (IH w o2 w2 Hs E1) as [-> F2]. split; [reflexivity|]. rewrite P_Exec.render_app. now apply fits_app.
Qed.
Lemma good_raw : forall tag A ss fin, Forall (tag_attr None) A -> Forall (raw_run py html const) ss ->
  (forall a s body, written_attrs a s -> fits html body -> wr (L "<" ++ tag ++ s ++ L ">" ++ body ++ fin)) ->
  good (RText (L "<" ++ tag) None :: A ++ RText (L ">") None :: ss ++ [RText fin None]).
Proof.
  intros tag A ss fin T R H w o w' Hs Ss E. apply Forall_cons_iff in Ss. destruct Ss as [_ Ss]. apply Forall_app in Ss. destruct Ss as [SA _].
  cbn [S_Run.means] in E. unfold then_ at 1 in E. inv_ok E. destruct a as [o1 w1]. cbn [fst snd] in *. rewrite means_app in E1. unfold then_ at 1 in E1. inv_ok E1. destruct a as [o2 w2]. cbn [fst snd] in *.
  cbn [S_Run.means] in E3. unfold then_ at 1 in E3. inv_ok E3. destruct a as [o3 w3]. cbn [fst snd] in *. rewrite means_app in E5. unfold then_ at 1 in E5. inv_ok E5. destruct a as [o4 w4]. cbn [fst snd] in *. rewrite means_one in E7. destruct a3 as [o5 w5]. cbn [fst snd] in *.
  injection E5 as <-. cbn [fst snd] in *. injection E3 as <-. cbn [fst snd] in *. injection E1 as <-. cbn [fst snd] in *. injection E as <- <-.
  rewrite !P_Exec.render_app. destruct (text_means _ _ _ _ _ E0) as [-> T1]. destruct (attrs_mean None A w o2 w2 Hs T SA E2) as [G2 [a W]]. pose proof (stays_grows _ _ Hs G2) as Hs2.
  destruct (text_means _ _ _ _ _ E4) as [-> T3]. destruct (raw_flat ss R w2 o4 w4 Hs2 E6) as [-> F4]. destruct (text_means _ _ _ _ _ E7) as [-> T5]. split; [exact G2|].
  cbn [truthy_guard] in *. rewrite T1, T3, T5. rewrite <- !app_assoc. now apply (H a).
Qed.
Lemma good_section : forall a ss b, Forall (raw_run py html const) ss -> (forall body, fits html body -> wr (a ++ body ++ b)) -> good (RText a None :: ss ++ [RText b None]).
Proof.
  intros a ss b R H w o w' Hs _ E. cbn [S_Run.means] in E. unfold then_ at 1 in E. inv_ok E. destruct a0 as [o1 w1]. cbn [fst snd] in *. rewrite means_app in E1. unfold then_ at 1 in E1. inv_ok E1. destruct a0 as [o2 w2]. cbn [fst snd] in *. rewrite means_one in E3. destruct a2 as [o3 w3]. cbn [fst snd] in *.
  injection E1 as <-. cbn [fst snd] in *. injection E as <- <-.
  rewrite !P_Exec.render_app. destruct (text_means _ _ _ _ _ E0) as [-> T1]. destruct (raw_flat ss R w o2 w2 Hs E2) as [-> F2]. destruct (text_means _ _ _ _ _ E3) as [-> T3]. split; [apply grows_refl; apply Hs|].
  cbn [truthy_guard] in *. rewrite T1, T3. now apply H.
Qed.
Lemma good_app : forall a b, good a -> good b -> good (a ++ b).
Proof.
  intros a b Ga Gb w o w' Hs Ss E. apply Forall_app in Ss. destruct Ss as [Sa Sb]. rewrite means_app in E. unfold then_ in E. inv_ok E. destruct a0 as [o1 w1], a1 as [o2 w2]. cbn [fst snd] in *. injection E as <- <-.
  destruct (Ga w o1 w1 Hs Sa E0) as [G1 W1]. destruct (Gb w1 o2 w2 (stays_grows _ _ Hs G1) Sb E1) as [G2 W2]. split; [exact (grows_trans _ _ _ _ _ _ _ G1 G2)|]. rewrite P_Exec.render_app. now apply wr_app.
Qed.
Lemma good_else : forall a t g c els, good (a ++ [RText t g]) -> truthy_guard g = Some c -> good els -> good (a ++ [RIf c [RText t None] els]).
Proof.
  intros a t g c els Ga Tg Ge w o w' Hs Ss E. apply Forall_app in Ss. destruct Ss as [Sa Se]. apply Forall_cons_iff in Se. destruct Se as [Se _]. apply safe_if in Se. destruct Se as [_ Se].
  rewrite means_app in E. unfold then_ in E. inv_ok E. destruct a0 as [o1 w1], a1 as [o2 w2]. cbn [fst snd] in *. injection E as <- <-. rewrite means_one, meaning_if in E1. inv_ok E1.
  assert (Sg : Forall safe_rstm (a ++ [RText t g])) by (apply Forall_app; split; [exact Sa|repeat constructor]).
  assert (Q : forall o' w', means [RText t g] w1 = Ok (o', w') -> grows w w' /\ wr (render (o1 ++ o'))).
  { intros o' w0 E'. apply (Ga w (o1 ++ o') w0 Hs Sg). rewrite means_app, E0. unfold then_. cbn [rbind fst snd]. rewrite E'. reflexivity. }
  rewrite means_one in Q. cbn [S_Run.meaning] in Q. unfold S_Run.under in Q. rewrite Tg, E in Q. cbn [rbind] in Q. destruct a0.
  - rewrite means_one in E1. cbn [S_Run.meaning] in E1. unfold S_Run.under in E1. cbn [truthy_guard] in E1. apply Q. exact E1.
  - destruct (Q _ _ eq_refl) as [G1 W1]. rewrite app_nil_r in W1. destruct (Ge w1 o2 w2 (stays_grows _ _ Hs G1) Se E1) as [G2 W2]. split; [exact (grows_trans _ _ _ _ _ _ _ G1 G2)|]. rewrite P_Exec.render_app. now apply wr_app.
Qed.
Lemma assigns_ok : forall vars w w', stays w -> Forall (fun kx => free_name (fst kx) /\ safe_text py html (snd kx)) vars -> assigns py p vars w = Ok w' -> world_ok w' /\ w_heap w' = w_heap w.
Proof.
  induction vars as [|[k x] vars IH]; intros w w' Hs Sv E; cbn [assigns] in E; [injection E as <-; split; [apply Hs|reflexivity]|]. apply Forall_cons_iff in Sv. destruct Sv as [[Fk Sx] Sv]. inv_ok E.
  destruct (set_name_ok py html F const w p k a (proj1 Hs)) as [H1 E1]; [apply (free_var py html F const); [exact Fk|exact (eval_ok py html F const G w p _ _ (proj1 Hs) Sx E0)]|].
  destruct (IH (set_name w p k a) w') as [H2 E2]; [split; [exact H1|unfold size; rewrite E1; apply Hs]|exact Sv|exact E|]. split; [exact H2|congruence].
Qed.
Lemma for_each_ok : forall b l w o w', good b -> Forall safe_rstm b -> stays w -> Forall (Forall (fun kv => var_ok (size w) (fst kv) (snd kv))) l ->
  for_each p (means b) l w = Ok (o, w') -> grows w w' /\ wr (render o).
Proof.
  intros b l w o w' Gb Sb. revert w o w'. induction l as [|r l IH]; intros w o w' Hs Hl E; cbn [for_each] in E; [injection E as <- <-; split; [apply grows_refl; apply Hs|apply wr_nil]|].
  apply Forall_cons_iff in Hl. destruct Hl as [Hr Hl]. unfold then_ in E. inv_ok E. destruct a as [o1 w1], a0 as [o2 w2]. cbn [fst snd] in *. injection E as <- <-.
  destruct (set_names_ok py html F const r w p (proj1 Hs) Hr) as [H1 E1']. pose proof (grown w (set_names w p r) H1 E1') as G0. destruct (Gb (set_names w p r) o1 w1 (stays_grows _ _ Hs G0) Sb E0) as [G1 W1]. pose proof (grows_trans _ _ _ _ _ _ _ G0 G1) as G01.
  destruct (IH w1 o2 w2 (stays_grows _ _ Hs G01)) as [G2 W2]; [|exact E1|].
  - eapply Forall_impl; [|exact Hl]. intros r' Hr'. eapply Forall_impl; [|exact Hr']. intros kv. apply var_ok_le. apply G01.
  - split; [exact (grows_trans _ _ _ _ _ _ _ G01 G2)|]. rewrite P_Exec.render_app. now apply wr_app.
Qed.
Lemma main_callable : forall h i c f (fragment : bool), attrs _ _ h i = bound _ i (methods _ _ c) -> i < length h -> main_ok fragment c -> main_of py h i = Ok f ->
  safe_decl (fst (fst (fst f))) /\ Forall safe_rstm (snd (fst (fst f))) /\ snd (fst f) = i /\ (if fragment then nested (snd (fst (fst f))) else page (snd (fst (fst f)))).
Proof.
  intros h i c f fragment Ha Hi Hm E. unfold main_of in E. inv_ok E. unfold getattr in E0. rewrite Ha, get_bound in E0. destruct (get main (methods _ _ c)) as [[d b]|] eqn:Eg; [|discriminate]. cbn [option_map] in E0. injection E0 as <-.
  unfold tpl_callable in E. cbn [target f_code f_inst] in E. inv_ok E. injection E as <-. cbn [fst snd]. destruct (Hm d b Eg) as (H1 & H2 & H3). (split; [exact H1|]); (split; [exact H2|]); (split; [reflexivity|exact H3]).
Qed.
Lemma show_main : forall f w o w', stays w -> safe_decl (fst (fst (fst f))) -> Forall safe_rstm (snd (fst (fst f))) -> snd (fst f) < size w ->
  show_call py invoke f w = Ok (o, w') -> (nested (snd (fst (fst f))) -> grows w w' /\ wr (render o)) /\ (page (snd (fst (fst f))) -> grows w w' /\ page_text (render o)).
Proof.
  intros [[[d b] i] ss] w o w' Hs Sd Sb Hi E. cbn [fst snd] in *. unfold show_call, call_function in E. inv_ok E. injection E as <- <-. inv_ok E0. injection E0 as <-. destruct a1 as [o1 w1]. cbn [fst snd] in *.
  destruct (Hinv (d, b, i, ss) a0 w o1 w1 (proj1 Hs) Hi) as (H1 & H2 & _); [exact (bind_args_ok py html F const (size w) d [] a0 Sd (Forall_nil _) E)|exact Sb|exact E1|]. cbn [fst snd] in *. rewrite render_flat. now split.
Qed.
Lemma import_template_ok : forall w t a w' r, stays w -> const (alias_name t a) = None -> import_template py load w p t a = Ok (w', r) ->
  grows w w' /\ exists c, attrs _ _ (w_heap w') r = bound _ r (methods _ _ c) /\ r < size w' /\ main_ok true c.
Proof.
  intros w t a w' r [[Hh Hf] Hp] Ca E. unfold import_template in E. inv_ok E. assert (Hg : a1 < size w) by (apply (instance_lt py html F const G w p (L "self")); [now split|cbn; intuition discriminate|exact E1]). destruct (Hload true t a2 E2) as [Hc Hm].
  pose proof (import_ok py html F const Fh Co (w_heap w) t a a2 a1 Hh Hc Hg Ca) as H. cbv zeta in H. destruct (import_ _ _ (w_heap w) t a a2 a1) as [h1 r1]. cbn [fst snd] in *. injection E as <- <-. destruct H as (H1 & H2 & H3 & H4). cbn [w_heap w_frames].
  split; [|exists a2; exact (conj H4 (conj H3 Hm))]. split; [|exact H2]. split; [exact H1|]. cbn [w_frames]. eapply Forall_impl; [|exact Hf]. intros fr [Hv Hn]. split; [|exact Hn]. eapply Forall_impl; [|exact Hv]. intros kv. now apply var_ok_le.
Qed.
Lemma extend_template_ok : forall w t w' r, stays w -> extend_template py load w p t = Ok (w', r) ->
  grows w w' /\ exists c, attrs _ _ (w_heap w') r = bound _ r (methods _ _ c) /\ r < size w' /\ main_ok false c.
Proof.
  intros w t w' r [[Hh Hf] Hp] E. unfold extend_template in E. inv_ok E. destruct (Hload false t a0 E1) as [Hc Hm]. destruct a1 as [h1 r1]. cbn [fst snd] in *. injection E as <- <-.
  destruct (extend_ok py html F const Fh Co (w_heap w) a a0 h1 r1 Hh Hc E2) as (H1 & H2 & H3 & H4).
  split; [|exists a0; exact (conj H4 (conj H3 Hm))]. split; [|exact H2]. split; [exact H1|]. cbn [w_frames]. eapply Forall_impl; [|exact Hf]. intros fr [Hv Hn]. split; [|exact Hn]. eapply Forall_impl; [|exact Hv]. intros kv. now apply var_ok_le.
Qed.

Lemma nested_good : forall b, nested b -> good b.
Proof.
  intros b N0. induction N0 as [ |a b Na IHa Nb IHb| |t g Wt|t g v Wt|x|c b els Nb IHb Ne IHe|d b els Nb IHb Ne IHe|vars b Nb IHb|d els Ne IHe|d c b cases els Nb IHb Nc IHc|d b Nb IHb|d c b Nb IHb|t a|t|lines|g tag A content fin St T Nc IHc H|g tag A fin St T H|g c tag A els content fin Tg St T Ne IHe Nc IHc H|tag A ss fin T R H|a ss b R H|a t g c els Na IHa Tg Ne IHe].
  - intros w o w' Hs Ss E. injection E as <- <-. split; [apply grows_refl; apply Hs|apply wr_nil].
  - now apply good_app.
  - apply good_one. intros w o w' Hs Ss E. injection E as <- <-. split; [apply grows_refl; apply Hs|]. rewrite render_str. apply wr_nil.
  - apply good_one. intros w o w' Hs Ss E. cbn [S_Run.meaning] in E. apply under_cases in E. destruct E as [E|[-> ->]]; [injection E as <- <-|]; (split; [apply grows_refl; apply Hs|]); [now rewrite render_str|apply wr_nil].
  - apply good_one. intros w o w' Hs Ss E. cbn [S_Run.meaning] in E. apply under_cases in E. destruct E as [E|[-> ->]]; [|split; [apply grows_refl; apply Hs|apply wr_nil]].
    destruct (strip t) as [|c0 s0]; [injection E as <- <-|inv_ok E; injection E as <- <-]; (split; [apply grows_refl; apply Hs|]).
    + rewrite render_str. exists (map I_char v). now apply written_of_text.
    + exact (translate_ok py html F const G w p t _ v (proj1 Hs) Wt E0).
  - apply good_one. intros w o w' Hs Ss E. cbn [S_Run.meaning] in E. inv_ok E. destruct a as [v w1]. cbn [fst snd] in E. injection E as <- <-. now apply (show_value_ok x w v w1).
  - apply good_one. intros w o w' Hs Ss E. rewrite meaning_if in E. apply safe_if in Ss. inv_ok E. destruct a; [now apply (IHb w o w')|now apply (IHe w o w')].
  - apply good_one. intros w o w' Hs Ss E. rewrite meaning_for in E. apply safe_for in Ss. destruct Ss as [[S1 S2] [S3 S4]]. inv_ok E. unfold then_ in E. inv_ok E. destruct a0 as [o1 w1], a1 as [o2 w2]. cbn [fst snd] in *. injection E as <- <-.
    destruct (for_each_ok b a w o1 w1 IHb S3 Hs (rounds_ok py html F const G w p d a (proj1 Hs) S1 S2 E0) E1) as [G1 W1]. destruct (IHe w1 o2 w2 (stays_grows _ _ Hs G1) S4 E2) as [G2 W2]. split; [exact (grows_trans _ _ _ _ _ _ _ G1 G2)|]. rewrite P_Exec.render_app. now apply wr_app.
  - apply good_one. intros w o w' Hs Ss E. rewrite meaning_with in E. apply safe_with in Ss. destruct Ss as [S1 S2]. inv_ok E. destruct a0 as [o1 w1]. cbn [fst snd] in *. injection E as <- <-.
    destruct (assigns_ok vars w a Hs S1 E0) as [H1 Eh]. pose proof (grown w a H1 Eh) as G0. destruct (IHb a o1 w1 (stays_grows _ _ Hs G0) S2 E1) as [G1 W1]. split; [|exact W1]. pose proof (grows_trans _ _ _ _ _ _ _ G0 G1) as G2.
    destruct (set_names_ok py html F const (old_values p (map fst vars) w) w1 p (proj1 G1)) as [H2 E2].
    + eapply Forall_impl; [|apply (old_values_ok py html F const w p (map fst vars) (proj1 Hs)); apply Forall_map; eapply Forall_impl; [|exact S1]; intros kx [H _]; exact H]. intros kv. apply var_ok_le. apply G2.
    + exact (grows_trans _ _ _ _ _ _ _ G2 (grown _ _ H2 E2)).
  - apply good_one. intros w o w' Hs Ss E. rewrite meaning_switch in E. apply safe_switch in Ss. inv_ok E. cbn [first_case] in E. now apply (IHe w o w').
  - apply good_one. intros w o w' Hs Ss E. rewrite meaning_switch in E. pose proof Ss as Ss'. apply safe_switch in Ss. destruct Ss as [S1 S2]. apply Forall_cons_iff in S1. destruct S1 as [S0 S1]. inv_ok E. cbn [first_case] in E. inv_ok E. destruct (veq py a0 a).
    + now apply (IHb w o w').
    + apply (IHc w o w' Hs); [constructor; [now apply safe_switch|constructor]|]. rewrite means_one, meaning_switch, E0. exact E.
  - apply good_one. intros w o w' Hs Ss E. cbn [S_Run.meaning] in E. injection E as <- <-. apply safe_def in Ss. destruct Ss as [S1 S2]. destruct (define_ok d b w Hs S1 Nb S2) as [H1 E1]. split; [now apply grown|apply wr_nil].
  - apply good_one. intros w o w' Hs Ss E. cbn [S_Run.meaning] in E. apply safe_call in Ss. destruct Ss as (S1 & S2 & S3 & S4). inv_ok E. destruct a as [v w1]. cbn [fst snd] in E. injection E as <- <-. destruct (define_ok d b w Hs S1 Nb S4) as [H1 E1]. pose proof (grown _ _ H1 E1) as G0.
    destruct (show_call_ok c (define p d b w) v w1 (stays_grows _ _ Hs G0) S2 S3 E0) as [G1 W1]. split; [exact (grows_trans _ _ _ _ _ _ _ G0 G1)|exact W1].
  - apply good_one. intros w o w' Hs Ss E. cbn [S_Run.meaning] in E. inv_ok E. destruct a0 as [w1 r]. cbn [fst snd] in E. injection E as <- <-. destruct (import_template_ok w t a w1 r Hs Ss E0) as [G1 _]. split; [exact G1|apply wr_nil].
  - apply good_one. intros w o w' Hs Ss E. cbn [S_Run.meaning] in E. inv_ok E. destruct a as [w1 r]. cbn [fst snd] in *. destruct (import_template_ok w t None w1 r Hs Ss E0) as [G1 (c & Ha & Hr & Hm)].
    destruct (main_callable _ _ c a0 true Ha Hr Hm E1) as (M1 & M2 & M3 & M4). destruct (show_main a0 w1 o w' (stays_grows _ _ Hs G1) M1 M2) as [H1 _]; [rewrite M3; exact Hr|exact E|]. destruct (H1 M4) as [G2 W]. split; [exact (grows_trans _ _ _ _ _ _ _ G1 G2)|exact W].
  - apply good_one. intros w o w' Hs Ss E. cbn [S_Run.meaning] in E. exact (run_block_ok py html F const G _ w p o w' (proj1 Hs) Ss E).
  - now apply good_element.
  - now apply good_empty.
  - now apply good_open_else.
  - now apply good_raw.
  - now apply good_section.
  - now apply (good_else a t g).
Qed.
Lemma page_good : forall b w o w', page b -> stays w -> Forall safe_rstm b -> means b w = Ok (o, w') -> grows w w' /\ page_text (render o).
Proof.
  intros b w o w' Pb Hs Ss E. destruct Pb as [b Nb|line b Al Nb|t b Nb].
  - destruct (nested_good b Nb w o w' Hs Ss E) as [G1 W1]. split; [exact G1|]. exists [], (render o). split; [reflexivity|]. split; [now left|exact W1].
  - apply Forall_cons_iff in Ss. destruct Ss as [_ Ss]. cbn [S_Run.means] in E. unfold then_ in E. inv_ok E. destruct a as [o1 w1], a0 as [o2 w2]. cbn [fst snd] in *. injection E as <- <-. cbn [S_Run.meaning] in E0. unfold S_Run.under in E0. cbn [truthy_guard] in E0. injection E0 as <- <-.
    destruct (nested_good b Nb w o2 w2 Hs Ss E1) as [G1 W1]. split; [exact G1|]. exists line, (render o2). split; [|split; [now right|exact W1]]. change (render ([VStr line] ++ o2) = line ++ render o2). now rewrite P_Exec.render_app, render_str.
  - apply Forall_cons_iff in Ss. destruct Ss as [_ Ss]. cbn [S_Run.means] in E. unfold then_ in E. inv_ok E. destruct a as [o1 w1], a0 as [o2 w2]. cbn [fst snd] in *. injection E as <- <-. cbn [S_Run.meaning] in E0. inv_ok E0. destruct a as [w0 r]. cbn [fst snd] in *.
    destruct (extend_template_ok w t w0 r Hs E) as [G1 (c & Ha & Hr & Hm)]. destruct (main_callable _ _ c a0 false Ha Hr Hm E2) as (M1 & M2 & M3 & M4). pose proof (stays_grows _ _ Hs G1) as Hs1.
    destruct (show_main a0 w0 o1 w1 Hs1 M1 M2) as [_ H1]; [rewrite M3; exact Hr|exact E0|]. destruct (H1 M4) as [G2 (line & s & El & Al & Ws)]. pose proof (stays_grows _ _ Hs1 G2) as Hs2. destruct (nested_good b Nb w1 o2 w2 Hs2 Ss E1) as [G3 W3].
    split; [exact (grows_trans _ _ _ _ _ _ _ G1 (grows_trans _ _ _ _ _ _ _ G2 G3))|]. exists line, (s ++ render o2). split; [rewrite P_Exec.render_app, El; now rewrite app_assoc|]. split; [exact Al|now apply wr_app].
Qed.
Lemma attr_good : forall b w o w', Forall attr_piece b -> stays w -> Forall safe_rstm b -> means b w = Ok (o, w') -> grows w w'.
Proof.
  induction b as [|s b IH]; intros w o w' Ab Hs Ss E; cbn [S_Run.means] in E; [injection E as <- <-; apply grows_refl; apply Hs|]. apply Forall_cons_iff in Ab. destruct Ab as [A0 Ab]. apply Forall_cons_iff in Ss. destruct Ss as [S0 Ss].
  unfold then_ in E. inv_ok E. destruct a as [o1 w1], a0 as [o2 w2]. cbn [fst snd] in *. injection E as <- <-.
  assert (G1 : grows w w1).
  { destruct s; try destruct A0; cbn [S_Run.meaning] in E0.
    - apply under_cases in E0. destruct E0 as [E0|[-> ->]]; [injection E0 as <- <-|]; apply grows_refl; apply Hs.
    - apply under_cases in E0. destruct E0 as [E0|[-> ->]]; [|apply grows_refl; apply Hs]. destruct (strip t); [injection E0 as <- <-|inv_ok E0; injection E0 as <- <-]; apply grows_refl; apply Hs.
    - inv_ok E0. destruct a as [v w0]. cbn [fst snd] in E0. injection E0 as <- <-. now apply (show_value_ok x w v w0). }
  exact (grows_trans _ _ _ _ _ _ _ G1 (IH w1 o2 w2 Ab (stays_grows _ _ Hs G1) Ss E1)).
Qed.
End Run.

Section Whole.
Variable py : python.
Variable html : bool.
Variable F : str -> Prop.
Variable const : str -> option M_Values.value.
Hypothesis Fh : forall k, F k -> ~ In k helper_names.
Hypothesis Co : forall k v, const k = Some v -> ~ In k own_names.
Hypothesis G : gentle_python py html F.
Variable load : bool -> str -> result (cls (fobj dcode) (str * dcode)).
Hypothesis Hload : forall fragment name c, load fragment name = Ok c -> class_ok py html F const c /\ main_ok py html F const fragment c.

Lemma apply_invokes : forall depth, invokes py html F const (apply py load depth).
Proof.
  induction depth as [|depth IH]; intros c params w o w' Hw Hi Hp Sb E; [discriminate|]. destruct c as [[[d b] i] ss]. cbn [fst snd] in *. cbn [apply] in E.
  set (w1 := World (w_heap w) (w_frames w ++ [Frame (map fst params ++ flat_map (binds py) b) params])) in *.
  assert (Hs : stays py html F const (Place i (length (w_frames w) :: ss)) w1).
  { split; [|exact Hi]. destruct Hw as [Hh Hf]. split; [exact Hh|]. apply Forall_app. split; [exact Hf|]. constructor; [|constructor]. split; cbn [fr_vars fr_names].
    - eapply Forall_impl; [|exact Hp]. intros kv [H _]. exact H.
    - apply Forall_app. split; [apply Forall_map; eapply Forall_impl; [|exact Hp]; intros kv [_ H]; exact H|]. apply forall_flat_map. eapply Forall_impl; [|exact Sb]. intros s. apply binds_free. }
  assert (Gr : grows py html F const w1 w' -> grows py html F const w w') by (intros H; exact H).
  split; [|split].
  - intros Nb. destruct (nested_good py html F const Fh Co G load Hload (apply py load depth) IH _ b Nb w1 o w' Hs Sb E) as [H1 H2]. split; [now apply Gr|exact H2].
  - intros Pb. destruct (page_good py html F const Fh Co G load Hload (apply py load depth) IH _ b w1 o w' Pb Hs Sb E) as [H1 H2]. split; [now apply Gr|exact H2].
  - intros Ab. apply Gr. exact (attr_good py html F const G load (apply py load depth) IH _ b w1 o w' Ab Hs Sb E).
Qed.
Theorem template_nested : forall depth c context out, class_ok py html F const c -> main_ok py html F const false c ->
  dict_ok py html F const 0 context -> has_constants const context -> a_dict context ->
  template_means py load depth c context = Ok out -> page_text html out.
Proof.
  intros depth c context out Hc Hm Hx Kx Dx E. unfold template_means in E. destruct (new_ok py html F const Fh Co [] c (Given _ _ context) (Forall_nil _) Hc (conj Hx (conj Kx Dx))) as (N1 & N2 & N3).
  pose proof (attrs_new _ _ [] c (Given _ _ context) 0) as Ap. cbn [length Nat.eqb] in Ap. destruct (new _ _ [] c (Given _ _ context)) as [h i]. cbn [fst snd length] in *. subst i. inv_ok E. injection E as <-.
  destruct (main_callable py html F const h 0 c a false Ap ltac:(lia) Hm E0) as (M1 & M2 & M3 & M4). destruct a0 as [v w']. cbn [fst snd].
  assert (Hs : stays py html F const (Place 0 []) (World h [])).
  { split; [split; [exact N1|constructor]|]. unfold size. cbn [w_heap p_inst]. lia. }
  destruct (show_main py html F const (apply py load depth) (apply_invokes depth) (Place 0 []) a (World h []) [v] w' Hs M1 M2) as [_ H1]; [rewrite M3; apply Hs| |now apply H1].
  unfold show_call. rewrite E1. reflexivity.
Qed.
End Whole.
