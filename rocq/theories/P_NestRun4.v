(** * Proofs: properly nested output, documents *)

From Coq Require Import Ascii String List Arith NArith ZArith Bool Lia Permutation Sorted.
From Verif Require Import PyStr PyStrLemmas M_Values S_Values P_Values M_IR S_IR M_Template S_Template P_Template M_Text M_XText S_XText M_Entities S_Entities M_Doctype M_Dom
  S_XDoc P_XDoc S_XFun M_Run M_XRun S_XRun P_XRun2 S_Markup P_Markup S_Nested P_Nested P_Raw P_Nested2 S_NestRun S_Run P_NestRun.
From Verif Require M_Exec S_Exec.
Import ListNotations.
Open Scope list_scope.

(** ** Attaching, in parts *)
Definition tail (h : option (list rstm)) : list rpiece := match h with Some els => [RcElse els] | None => [] end.
Definition prefixed (o : option (option (list rstm) * list rstm)) (r : list rstm) : option (option (list rstm) * list rstm) := option_map (fun hb => (fst hb, snd hb ++ r)) o.
Lemma attach_tail : forall h, attach (tail h) = Some (h, []).
Proof. intros [els|]; reflexivity. Qed.
Lemma attach_app : forall l1 l2 h r, attach l2 = Some (h, r) -> attach (l1 ++ l2) = prefixed (attach (l1 ++ tail h)) r.
Proof.
  induction l1 as [|q l1 IH]; intros l2 h r E; [cbn [app]; rewrite attach_tail; exact E|]. cbn [app attach]. rewrite (IH l2 h r E). destruct q as [s|els|c b]; [| |reflexivity].
  - destruct (attach (l1 ++ tail h)) as [[[els|] b]|]; cbn [prefixed option_map fst snd]; [|reflexivity|reflexivity]. destruct (says_something s); [|reflexivity]. destruct (with_else s els); cbn [option_map fst snd]; [now rewrite app_assoc|reflexivity].
  - destruct (attach (l1 ++ tail h)) as [[[els'|] b]|]; reflexivity.
Qed.
Lemma attach_none : forall l1 l2, attach l2 = None -> attach (l1 ++ l2) = None.
Proof. induction l1 as [|q l1 IH]; intros l2 E; [exact E|]. cbn [app attach]. rewrite (IH l2 E). now destruct q. Qed.
Lemma attach_parts : forall l1 l2 h r, attach (l1 ++ l2) = Some (h, r) -> exists h2 r2 r1, attach l2 = Some (h2, r2) /\ attach (l1 ++ tail h2) = Some (h, r1) /\ r = r1 ++ r2.
Proof.
  intros l1 l2 h r E. destruct (attach l2) as [[h2 r2]|] eqn:E2; [|rewrite attach_none in E by exact E2; discriminate]. rewrite (attach_app l1 l2 h2 r2 E2) in E. unfold prefixed in E.
  destruct (attach (l1 ++ tail h2)) as [[h1 r1]|] eqn:E1; [|discriminate]. cbn [option_map fst snd] in E. injection E as <- <-. exists h2, r2, r1. now repeat split.
Qed.
Lemma attach_stms : forall A, attach (map RcStm A) = Some (None, A).
Proof. induction A as [|s A IH]; [reflexivity|]. cbn [map attach]. now rewrite IH. Qed.

Section Docs.
Variable py : python.
Variable html : bool.
Variable const : str -> option M_Values.value.
Notation nested := (nested py html const).
Notation page := (page py html const).
Notation wr := (nested_text html).
Notation steady := (steady_run py const).

Lemma nested_cons : forall s b, nested [s] -> nested b -> nested (s :: b).
Proof. intros s b H1 H2. change (s :: b) with ([s] ++ b). now apply nn_app. Qed.
Lemma or_pass_nested : forall b, nested b -> nested (or_pass b).
Proof. intros [|s b] H; [apply nn_pass|exact H]. Qed.

(** ** Sequences of pieces *)
Definition may_else (s : rstm) : Prop := forall els b, nested els -> with_else s els = Some b -> nested b.
Inductive nps : list rpiece -> Prop :=
| np_nil : nps []
| np_app : forall a b, nps a -> nps b -> nps (a ++ b)
| np_stm : forall s, nested [s] -> may_else s -> nps [RcStm s]
| np_else : forall b, nested b -> nps [RcElse b]
| np_case : forall c b, nested b -> nps [RcCase c b]
| np_closed : forall l t, nested (l ++ [RText t None]) -> nps (map RcStm (l ++ [RText t None]))
| np_elem : forall g tag A content fin, steady g -> Forall (tag_attr g) A -> nps content ->
    (forall a s body, written_attrs a s -> wr body -> wr (L "<" ++ tag ++ s ++ L ">" ++ body ++ fin)) ->
    nps (RcStm (RText (L "<" ++ tag) g) :: map RcStm A ++ RcStm (RText (L ">") g) :: content ++ [RcStm (RText fin g)])
| np_empty : forall g tag A fin, steady g -> Forall (tag_attr g) A ->
    (forall a s, written_attrs a s -> wr (L "<" ++ tag ++ s ++ fin)) ->
    nps (RcStm (RText (L "<" ++ tag) g) :: map RcStm A ++ [RcStm (RText fin g)]).
Definition head_ok (h : option (list rstm)) : Prop := forall els, h = Some els -> nested els.
Lemma text_attach : forall t g h h' b, attach (RcStm (RText t g) :: tail h) = Some (h', b) -> h' = None /\
  (h = None /\ b = [RText t g] \/ exists els c, h = Some els /\ truthy_guard g = Some c /\ b = [RIf c [RText t None] els]).
Proof.
  intros t g h h' b E. cbn [attach] in E. rewrite attach_tail in E. destruct h as [els|]; cbn [says_something with_else] in E.
  - destruct (truthy_guard g) as [c|]; [|discriminate]. cbn [option_map] in E. split; [congruence|]. right. exists els, c. repeat split. cbn [app] in E. congruence.
  - split; [congruence|]. left. split; [reflexivity|congruence].
Qed.
Lemma nps_attach : forall l, nps l -> forall h h' b, head_ok h -> attach (l ++ tail h) = Some (h', b) -> nested b /\ head_ok h'.
Proof.
  intros l Hl. induction Hl as [|l1 l2 H1 IH1 H2 IH2|s Ns Ms|b0 Nb|c b0 Nb|l0 t Nl|g tag A content fin St T Hc IHc H|g tag A fin St T H]; intros h h' b Hh E.
  - cbn [app] in E. rewrite attach_tail in E. injection E as <- <-. split; [constructor|exact Hh].
  - rewrite <- app_assoc in E. apply attach_parts in E. destruct E as (h2 & r2 & r1 & E2 & E1 & ->). destruct (IH2 h h2 r2 Hh E2) as [N2 Hh2]. destruct (IH1 h2 h' r1 Hh2 E1) as [N1 Hh1]. split; [now apply nn_app|exact Hh1].
  - cbn [app attach] in E. rewrite attach_tail in E. destruct h as [els|].
    + destruct (says_something s); [|injection E as <- <-; now split]. destruct (with_else s els) as [s'|] eqn:Ew; [|discriminate]. cbn [option_map] in E. injection E as <- <-. rewrite app_nil_r. split; [apply (Ms els); [now apply Hh|exact Ew]|discriminate].
    + injection E as <- <-. now split.
  - cbn [app attach] in E. rewrite attach_tail in E. destruct h as [els|]; [discriminate|]. injection E as <- <-. split; [constructor|]. intros els E. now injection E as <-.
  - discriminate.
  - rewrite map_app, <- app_assoc in E. apply attach_parts in E. destruct E as (h2 & r2 & r1 & E2 & E1 & ->). cbn [map] in E2. change (attach (RcStm (RText t None) :: tail h) = Some (h2, r2)) in E2. apply text_attach in E2.
    destruct E2 as [-> [[-> ->]|(els & c & _ & X & _)]]; [|discriminate]. cbn [tail] in E1. rewrite app_nil_r, attach_stms in E1. injection E1 as <- <-. split; [exact Nl|discriminate].
  - change (attach ([RcStm (RText (L "<" ++ tag) g)] ++ (map RcStm A ++ RcStm (RText (L ">") g) :: content ++ [RcStm (RText fin g)]) ++ tail h) = Some (h', b)) in E. rewrite <- app_assoc in E.
    apply attach_parts in E. destruct E as (h1 & r1 & b1 & E & E1 & ->). apply attach_parts in E. destruct E as (h2 & r2 & b2 & E & E2 & ->).
    change (attach ([RcStm (RText (L ">") g)] ++ (content ++ [RcStm (RText fin g)]) ++ tail h) = Some (h2, r2)) in E. rewrite <- app_assoc in E.
    apply attach_parts in E. destruct E as (h3 & r3 & b3 & E & E3 & ->). apply attach_parts in E. destruct E as (h4 & r4 & b4 & E4 & E5 & ->).
    destruct (text_attach fin g h h4 r4 E4) as [-> H4]. destruct (IHc None h3 b4 ltac:(discriminate) E5) as [N4 Hh3]. destruct (text_attach _ g h3 h2 b3 E3) as [-> H3].
    cbn [tail] in E2. rewrite app_nil_r, attach_stms in E2. injection E2 as <- <-. destruct (text_attach _ g None h' b1 E1) as [-> [[_ ->]|(els & c & X & _)]]; [|discriminate]. split; [|discriminate].
    assert (N0 : nested (RText (L "<" ++ tag) g :: A ++ b3 ++ b4 ++ [RText fin g])).
    { destruct H3 as [[_ ->]|(els & c & -> & Tg & ->)]; cbn [app]; [now apply nn_element|]. apply nn_open_else; try assumption. now apply Hh3. }
    destruct H4 as [[_ ->]|(els & c & -> & Tg & ->)]; [exact N0|].
    assert (Ea : [RText (L "<" ++ tag) g] ++ A ++ b3 ++ b4 ++ [RIf c [RText fin None] els] = (RText (L "<" ++ tag) g :: A ++ b3 ++ b4) ++ [RIf c [RText fin None] els]) by (cbn [app]; now rewrite <- !app_assoc).
    rewrite Ea. apply (nn_else _ _ _ _ fin g); [|exact Tg|now apply Hh]. cbn [app]. now rewrite <- !app_assoc.
  - change (attach ([RcStm (RText (L "<" ++ tag) g)] ++ (map RcStm A ++ [RcStm (RText fin g)]) ++ tail h) = Some (h', b)) in E. rewrite <- app_assoc in E.
    apply attach_parts in E. destruct E as (h1 & r1 & b1 & E & E1 & ->). apply attach_parts in E. destruct E as (h2 & r2 & b2 & E & E2 & ->). destruct (text_attach fin g h h2 r2 E) as [-> H4].
    cbn [tail] in E2. rewrite app_nil_r, attach_stms in E2. injection E2 as <- <-. destruct (text_attach _ g None h' b1 E1) as [-> [[_ ->]|(els & c & X & _)]]; [|discriminate]. split; [|discriminate].
    assert (N0 : nested (RText (L "<" ++ tag) g :: A ++ [RText fin g])) by now apply nn_empty.
    destruct H4 as [[_ ->]|(els & c & -> & Tg & ->)]; [exact N0|].
    change (nested ((RText (L "<" ++ tag) g :: A) ++ [RIf c [RText fin None] els])). apply (nn_else _ _ _ _ fin g); [exact N0|exact Tg|now apply Hh].
Qed.
Lemma nps_assemble : forall l b, nps l -> assemble l = Some b -> nested b.
Proof.
  intros l b H E. unfold assemble in E. destruct (attach l) as [[[els|] r]|] eqn:Ea; try discriminate. injection E as <-. refine (proj1 (nps_attach l H None None r _ _)); [intros els0 E0; discriminate E0|]. cbn [tail]. rewrite app_nil_r. exact Ea.
Qed.
Definition part_ok (q : rpiece) : Prop := match q with RcElse b | RcCase _ b => nested b | _ => True end.
Lemma stms_parts : forall A, Forall part_ok (map RcStm A).
Proof. induction A; constructor; [exact Logic.I|assumption]. Qed.
Lemma nps_parts : forall l, nps l -> Forall part_ok l.
Proof.
  intros l Hl. induction Hl as [|l1 l2 H1 IH1 H2 IH2|s Ns Ms|b0 Nb|c b0 Nb|l0 t Nl|g tag A content fin St T Hc IHc H|g tag A fin St T H].
  - constructor.
  - apply Forall_app. now split.
  - repeat constructor.
  - now repeat constructor.
  - now repeat constructor.
  - apply stms_parts.
  - constructor; [exact Logic.I|]. apply Forall_app. split; [apply stms_parts|]. constructor; [exact Logic.I|]. apply Forall_app. split; [exact IHc|repeat constructor].
  - constructor; [exact Logic.I|]. apply Forall_app. split; [apply stms_parts|repeat constructor].
Qed.
Lemma parts_switch : forall d l cases els, Forall part_ok l -> assemble_switch l = Some (cases, els) -> nested [RSwitch d cases els].
Proof.
  intros d l. induction l as [|q l IH]; intros cases els Fl E; [injection E as <- <-; apply nn_switch; constructor|]. apply Forall_cons_iff in Fl. destruct Fl as [Fq Fl]. destruct q as [s|b|c b]; cbn [assemble_switch] in E; [discriminate| |].
  - destruct l; [|discriminate]. injection E as <- <-. now apply nn_switch.
  - destruct (assemble_switch l) as [[cs es]|] eqn:El; [|discriminate]. cbn [option_map fst snd] in E. injection E as <- <-. apply nn_case; [exact Fq|]. now apply IH.
Qed.

(** ** Documents *)
Variable compile : str -> compiled.
Variable autoblocks : list str.
Variable scripts : bool.
Variable mode : str.
Variable gen : str -> Prop.
Hypothesis Hmode : prefixb (L "html") mode = html.
Notation ordinary := (ordinary_run py html const compile autoblocks scripts mode).
Notation ordinaries := (ordinaries_run py html const compile autoblocks scripts mode).
Notation raw_text := (raw_text_run py html const compile).
Notation raw_run := (raw_run py html const).
Definition fact_ok (f : fact) : Prop := match f with Function _ b => nested b | ModuleCode _ => True end.

Lemma text_nps : forall t v, written_text v t -> nps [RcStm (RText t None)].
Proof. intros t v W. apply np_stm; [apply nn_text; now apply (wr_text html v)|]. intros els b N0 E. discriminate. Qed.
Lemma expr_nps : forall x, nps [RcStm (RExpr x false)].
Proof. intros x. apply np_stm; [apply nn_expr|]. intros els b N0 E. discriminate. Qed.
Lemma texts_nps : forall parent ln t ss, text_says compile parent ln t ss -> forall raw, t = xml_text raw -> nps (simple ss).
Proof.
  intros parent ln t ss T raw E. unfold simple. destruct T as [ps SS R|ps N1 N2 R]; pose proof (reads_texts compile ln t ps R raw E) as Fp; clear R; induction Fp as [|q ps Hq Fp IH]; try constructor; cbn [map];
    match goal with |- nps (?x :: ?l) => change (nps ([x] ++ l)) end; (apply np_app; [|exact IH]); clear IH Fp; destruct q as [l x|l x]; cbn [text_stm]; try apply expr_nps; destruct Hq as [v W].
  - now apply (text_nps x v).
  - destruct (forallb is_space x); cbn [as_rstm]; [now apply (text_nps x v)|]. apply np_stm; [now apply (nn_trans _ _ _ x None v)|]. intros els b N0 E1. discriminate.
Qed.
Lemma pieces_attr : forall k ps, k = TK_attr -> Forall attr_piece (or_empty (map as_rstm (map (text_stm k) ps))).
Proof.
  intros k ps ->. destruct ps as [|q ps]; [repeat constructor|]. cbn [map or_empty]. change (Forall attr_piece (map as_rstm (map (text_stm TK_attr) (q :: ps)))). generalize (q :: ps). clear. intros ps. induction ps as [|[l x|l x] ps IH]; constructor; try exact IH; exact Logic.I.
Qed.
Lemma shown_attrs : forall ln g l ss, attrs_say compile mode ln g l ss -> (forall k v, In (k, v) l -> ~ special_attr k -> legal_name k) -> Forall (tag_attr g) (map as_rstm ss).
Proof.
  intros ln g l ss H Hl. induction H as [|k v l ss ps Sp Hr H IH|k v l ps ss Sp R H IH]; [constructor| |].
  - apply IH. intros k' v' I1. apply (Hl k' v'). now right.
  - cbn [map as_rstm]. constructor; [|apply IH; intros k' v' I1; apply (Hl k' v'); now right]. left. exists k, (or_empty (map as_rstm (map (text_stm TK_attr) ps))), mode. split; [reflexivity|]. split; [apply (Hl k v); [now left|exact Sp]|now apply pieces_attr].
Qed.
Lemma more_good : forall g a ss, more_attrs mode g a ss -> Forall (tag_attr g) (map as_rstm ss).
Proof. intros g a ss [|x V Nx]; [constructor|]. constructor; [|constructor]. right. now exists x, mode. Qed.

Definition rest_ok (tag : str) (g : option str) (rest : list rpiece) : Prop :=
  legal_name tag -> prefixb (L "!") tag = false -> steady g -> forall A, Forall (tag_attr g) A ->
  nps (RcStm (RText (L "<" ++ tag) g) :: map RcStm A ++ rest).
Lemma rest_between : forall tag g cps, nps cps -> ~ (html = true /\ void tag) -> ~ (html = true /\ raw tag) -> rest_ok tag g (RcStm (RText (L ">") g) :: cps ++ [RcStm (RText (L "</" ++ tag ++ L ">") g)]).
Proof.
  intros tag g cps Gc Nv Nr Lt Nb St A FA. apply np_elem; try assumption. intros a s body W [is Wb]. exists (I_start tag a :: is ++ I_end tag :: []). rewrite <- (app_nil_r (L "</" ++ tag ++ L ">")), <- !app_assoc. apply w_elem; try assumption. constructor.
Qed.
Lemma rest_closed : forall tag g t, closes mode tag t -> rest_ok tag g [RcStm (RText t g)].
Proof.
  intros tag g t C Lt Nb St A FA. apply np_empty; try assumption. intros a s W.
  assert (Wb : ~ (html = true /\ void tag) -> wr (L "<" ++ tag ++ s ++ L "></" ++ tag ++ L ">")).
  { intros Nv. destruct (rawb_cases html tag) as [[Hh Hr]|Nr].
    { exists (I_start tag a :: map I_char [] ++ I_end tag :: []). change (L "></" ++ tag ++ L ">") with (L ">" ++ [] ++ L "</" ++ tag ++ L ">" ++ []). apply w_raw; try assumption; try constructor; intros (x & y & Ex); destruct x; discriminate. }
    exists (I_start tag a :: [] ++ I_end tag :: []). change (L "></" ++ tag ++ L ">") with (L ">" ++ [] ++ L "</" ++ tag ++ L ">" ++ []). apply w_elem; try assumption; constructor. }
  destruct C as [Hh V|Hh Nv| ->|Hh Ns].
  - exists [I_start tag a; I_end tag]. rewrite <- (app_nil_r (L ">")). apply w_void; [unfold is_html in Hh; congruence|exact V|exact W|constructor].
  - apply Wb. intros [_ V]. now apply Nv.
  - apply Wb. intros [_ V]. vm_compute in V. intuition discriminate.
  - exists [I_start tag a; I_end tag]. rewrite <- (app_nil_r (L "/>")). apply w_empty; try assumption; [|constructor]. unfold is_html in Hh. destruct html; [congruence|reflexivity].
Qed.
Lemma rest_void : forall tag g cps, nps cps -> html = true -> void tag -> rest_ok tag g (RcStm (RText (L ">") g) :: cps).
Proof.
  intros tag g cps Gc Hh V Lt Nb St A FA.
  assert (E : RcStm (RText (L "<" ++ tag) g) :: map RcStm A ++ RcStm (RText (L ">") g) :: cps = (RcStm (RText (L "<" ++ tag) g) :: map RcStm A ++ [RcStm (RText (L ">") g)]) ++ cps) by (cbn [app]; now rewrite <- app_assoc).
  rewrite E. clear E. apply np_app; [|exact Gc]. apply np_empty; try assumption. intros a s W. exists [I_start tag a; I_end tag]. rewrite <- (app_nil_r (L ">")). apply w_void; try assumption; constructor.
Qed.
(** Without [py:autoblock]. *)
Lemma in_without : forall k x (v : str) a, In (x, v) (without k a) -> In (x, v) a.
Proof. intros k x v a H. unfold without in H. apply filter_In in H. apply H. Qed.
Lemma in_without_other : forall k x (v : str) a, x <> k -> In (x, v) a -> In (x, v) (without k a).
Proof. intros k x v a Ne H. unfold without. apply filter_In. split; [exact H|]. cbn [fst]. destruct (seqb_spec k x); [congruence|reflexivity]. Qed.
Lemma own_in : forall tag a0 a x v, own_attrs autoblocks tag a0 a -> In (x, v) a -> In (x, v) a0.
Proof. intros tag a0 a x v [_|_ _ _]; [trivial|apply in_without]. Qed.
Lemma own_other : forall tag a0 a x v, own_attrs autoblocks tag a0 a -> x <> L "py:autoblock" -> In (x, v) a0 -> In (x, v) a.
Proof. intros tag a0 a x v [_|_ _ _] Ne; [trivial|now apply in_without_other]. Qed.
Lemma own_absent : forall tag a0 a x, own_attrs autoblocks tag a0 a -> x <> L "py:autoblock" -> absent x a -> absent x a0.
Proof. intros tag a0 a x O Ne Ab I1. apply Ab. apply in_map_iff in I1. destruct I1 as ([k v] & <- & I1). apply in_map_iff. exists (k, v). split; [reflexivity|]. now apply (own_other tag a0). Qed.
Lemma own_condition : forall tag a0 a g, own_attrs autoblocks tag a0 a -> tag_condition a g -> tag_condition a0 g.
Proof. intros tag a0 a g O [Ab|V|c V Nc]; [apply tc_none; now apply (own_absent tag a0 a)|apply tc_always; now apply (own_in tag a0 a)|apply tc_if; [now apply (own_in tag a0 a)|exact Nc]]. Qed.
Lemma own_nodup : forall tag a0 a, own_attrs autoblocks tag a0 a -> NoDup (map fst a0) -> NoDup (map fst a).
Proof.
  intros tag a0 a [_|_ _ _] ND; [exact ND|]. unfold without. clear -ND. induction a0 as [|kv a0 IH]; [constructor|]. cbn [map] in ND. apply NoDup_cons_iff in ND. destruct ND as [N1 ND]. cbn [filter]. destruct (negb _); [|now apply IH]. cbn [map]. constructor; [|now apply IH].
  intros I1. apply N1. apply in_map_iff in I1. destruct I1 as (x & E & I1). apply in_map_iff. exists x. split; [exact E|]. apply filter_In in I1. apply I1.
Qed.
Lemma own_content : forall tag a0 a, own_attrs autoblocks tag a0 a -> no_content_attr a0 -> no_content_attr a.
Proof.
  intros tag a0 a O [Ab|V]; [left|right].
  - intros I1. apply Ab. apply in_map_iff in I1. destruct I1 as ([k v] & E & I1). apply in_map_iff. exists (k, v). split; [exact E|]. now apply (own_in tag a0 a).
  - apply (own_other tag a0 a); [exact O|discriminate|exact V].
Qed.

Ltac known := vm_compute; tauto.
Lemma simple_map : forall ss, simple ss = map RcStm (map as_rstm ss).
Proof. intros ss. unfold simple. now rewrite map_map. Qed.
(** Script and style elements, CDATA sections. *)
Lemma rest_html : forall tag ss, html = true -> script_or_style tag -> Forall raw_run ss -> rest_ok tag None (RcStm (RText (L ">") None) :: map RcStm ss ++ [RcStm (RText (L "</" ++ tag ++ L ">") None)]).
Proof.
  intros tag ss Hh SS Fs Lt Nb St A FA.
  assert (E : RcStm (RText (L "<" ++ tag) None) :: map RcStm A ++ RcStm (RText (L ">") None) :: map RcStm ss ++ [RcStm (RText (L "</" ++ tag ++ L ">") None)] =
     map RcStm ((RText (L "<" ++ tag) None :: A ++ RText (L ">") None :: ss) ++ [RText (L "</" ++ tag ++ L ">") None])) by (cbn [app map]; rewrite !map_app; cbn [map app]; rewrite <- app_assoc; reflexivity).
  rewrite E. apply np_closed. cbn [app]. rewrite <- app_assoc. cbn [app]. apply nn_raw; [exact FA|exact Fs|].
  intros a s body W Fb. exists (I_start tag a :: map I_char body ++ I_end tag :: []). rewrite <- (app_nil_r (L "</" ++ tag ++ L ">")), <- !app_assoc. rewrite Hh in Fb. apply w_raw; try assumption; [now apply fits_end_tag|now apply fits_comment|constructor].
Qed.
Lemma section_nps : forall a ss b, Forall raw_run ss -> (forall body, fits html body -> wr (a ++ body ++ b)) -> nps (RcStm (RText a None) :: map RcStm ss ++ [RcStm (RText b None)]).
Proof.
  intros a ss b Fs H. assert (E : RcStm (RText a None) :: map RcStm ss ++ [RcStm (RText b None)] = map RcStm ((RText a None :: ss) ++ [RText b None])) by (cbn [app map]; now rewrite map_app).
  rewrite E. apply np_closed. cbn [app]. now apply nn_section.
Qed.
Lemma rest_xml : forall tag ss, html = false -> Forall raw_run ss ->
  rest_ok tag None (RcStm (RText (L ">") None) :: (RcStm (RText (L "/*<![CDATA[*/") None) :: map RcStm ss ++ [RcStm (RText (L "/*]]>*/") None)]) ++ [RcStm (RText (L "</" ++ tag ++ L ">") None)]).
Proof.
  intros tag ss Hh Fs. apply rest_between; [|intros [X _]; congruence|intros [X _]; congruence]. apply section_nps; [exact Fs|]. rewrite Hh. apply section_written.
Qed.
Lemma tells_nested :
  (forall i c parent prev n ps fs c', tells compile autoblocks scripts mode gen i c parent prev n ps fs c' ->
     (ordinary n -> nps ps /\ Forall fact_ok fs /\ c' = c) /\
     (raw_text parent n -> (exists ss, ps = map RcStm ss /\ Forall raw_run ss) /\ fs = [] /\ c' = c)) /\
  (forall i c ln tag a g cs rest fs c', rest_tells compile autoblocks scripts mode gen i c ln tag a g cs rest fs c' -> NoDup (map fst a) ->
     (Forall ordinary cs \/ html = false /\ ordinaries tag cs -> ~ (script_or_style tag /\ (scripts = true \/ html = true)) -> (html = true -> void tag -> no_content_attr a) ->
        rest_ok tag g rest /\ Forall fact_ok fs /\ c' = c) /\
     (script_or_style tag -> scripts = true \/ html = true -> raw_content_run py html const compile scripts mode tag a cs -> g = None -> rest_ok tag g rest /\ Forall fact_ok fs /\ c' = c)) /\
  (forall i c marks parent prev l ps fs c', all_tell compile autoblocks scripts mode gen i c marks parent prev l ps fs c' ->
     (Forall ordinary l -> nps ps /\ Forall fact_ok fs /\ c' = c) /\
     (marks = true -> html = false -> ordinaries parent l -> nps ps /\ Forall fact_ok fs /\ c' = c) /\
     (Forall (raw_text parent) l -> (exists ss, ps = map RcStm ss /\ Forall raw_run ss) /\ fs = [] /\ c' = c) /\
     (marks = true -> html = false -> forall ts ln l', l = ts ++ DMark ln (L "]]>") :: l' -> Forall (raw_text parent) ts -> ordinaries parent l' ->
        (exists ss qs, ps = map RcStm ss ++ RcStm (RText (L "]]>") None) :: qs /\ Forall raw_run ss /\ nps qs) /\ Forall fact_ok fs /\ c' = c)).
Proof.
  assert (PlainRaw : forall tag, script_or_style tag -> plain_tag tag) by (intros tag SS d [_ (pre & E & _)] _; destruct SS as [->| ->]; discriminate E).
  assert (Two : html = true \/ html = false) by (destruct html; auto).
  assert (NotPlain : forall tag d, In d known_directives -> directive tag d -> ~ plain_tag tag) by (intros tag d K D P; exact (P d D K)).
  assert (InsideP : forall ln tag a cs, ~ plain_tag tag \/ autoblock autoblocks tag a -> ordinary (DElem ln tag a cs) -> Forall ordinary cs).
  { intros ln tag a cs Np O. inversion O as [| | |? ? ? ? Ne Ho Fc|? ? ? ? Py Na|? ? ? ? SS Na]; [exact Fc|tauto|]. destruct Np as [Np|Np]; [|contradiction]. exfalso. now apply Np, PlainRaw. }
  assert (Inside : forall ln tag a a' cs d, is_directive autoblocks tag a d a' -> In d known_directives -> ordinary (DElem ln tag a cs) -> Forall ordinary cs).
  { intros ln tag a a' cs d [D _] K O. apply (InsideP ln tag a cs); [left; now apply (NotPlain tag d)|exact O]. }
  assert (InsideB : forall ln tag a cs name, is_block autoblocks tag a name -> ordinary (DElem ln tag a cs) -> Forall ordinary cs).
  { intros ln tag a cs name [Au|a' D] O; [apply (InsideP ln tag a cs); [now right|exact O]|]. apply (Inside ln tag a a' cs (L "block")); [exact D|vm_compute; tauto|exact O]. }
  assert (One : forall s, nested [s] -> (forall els, with_else s els = None) -> nps [RcStm s]) by (intros s N0 W; apply np_stm; [exact N0|]; intros els b _ E; rewrite W in E; discriminate).
  assert (Body : forall (P : Prop) ps b fs (c c' : bool), (P -> nps ps /\ Forall fact_ok fs /\ c' = c) -> assemble ps = Some b -> P -> nested b /\ Forall fact_ok fs /\ c' = c).
  { intros P ps b fs c c' IH A HP. destruct (IH HP) as (H1 & H2 & H3). split; [now apply (nps_assemble ps)|now split]. }
  assert (Nraw : forall tag, ~ (script_or_style tag /\ (scripts = true \/ html = true)) -> ~ (html = true /\ raw tag)) by (intros tag N0 [H1 H2]; apply N0; split; [exact H2|now right]).
  apply tells_induction.
  - (* comment *) intros i c parent prev ln t Np. split; [|intros []]. intros O. inversion O as [|? ? Nt| | | |]. split; [|split; [constructor|reflexivity]]. apply np_stm; [|intros els b _ E; discriminate]. apply nn_text. exists [I_comment (L " " ++ t ++ L " ")]. now apply comment_written.
  - intros. split; [|intros []]. intros _. split; [constructor|split; [constructor|reflexivity]].
  - (* text *) intros i c parent prev ln t e ss T. split.
    + intros O. split; [|split; [constructor|reflexivity]]. remember (DText ln t e) as n eqn:En. destruct O as [ln0 raw e0| | | | |]; try discriminate En. apply (texts_nps parent ln t ss T raw). congruence.
    + intros R. split; [|now split]. exists (map as_rstm ss). split; [apply simple_map|]. now apply R.
  - intros i c parent prev ln t ss T. split; [|intros []]. intros O. inversion O.
  - (* Python *) intros i c parent prev ln t d lines N1 N2 D. split; [|intros []]. intros O. split; [|split; [constructor|reflexivity]]. apply One; [apply nn_python|reflexivity].
  - intros i c parent prev ln t d code lines Es D. split; [|intros []]. intros O. split; [constructor|]. split; [repeat constructor|reflexivity].
  - (* if *) intros i c parent prev ln tag a a' cs ps b fs c' D H [IH _] A Sd. split; [|intros []]. intros O. destruct (Body _ ps b fs c c' IH A (Inside _ _ _ _ _ _ D ltac:(known) O)) as (H1 & H2 & H3). split; [|now split]. apply np_stm; [apply nn_if; [exact H1|constructor]|]. intros els b' N0 E. cbn [with_else] in E. injection E as <-. now apply nn_if.
  - (* else *) intros i c parent prev ln tag a a' cs ps b fs c' D Hp H [IH _] A Sd. split; [|intros []]. intros O. destruct (Body _ ps b fs c c' IH A (Inside _ _ _ _ _ _ D ltac:(known) O)) as (H1 & H2 & H3). split; [|now split]. now apply np_else.
  - (* for *) intros i c parent prev ln tag a a' cs ps b fs c' D H [IH _] A Sd. split; [|intros []]. intros O. destruct (Body _ ps b fs c c' IH A (Inside _ _ _ _ _ _ D ltac:(known) O)) as (H1 & H2 & H3). split; [|now split]. apply np_stm; [apply nn_for; [exact H1|constructor]|]. intros els b' N0 E. cbn [with_else] in E. injection E as <-. now apply nn_for.
  - (* with *) intros i c parent prev ln tag a a' cs vars ps b fs c' D V H [IH _] A. split; [|intros []]. intros O. destruct (Body _ ps b fs c c' IH A (Inside _ _ _ _ _ _ D ltac:(known) O)) as (H1 & H2 & H3). split; [|now split]. apply One; [now apply nn_with|reflexivity].
  - (* switch *) intros i c parent prev ln tag a a' cs ps cases els fs c' D H [IH _] A. split; [|intros []]. intros O. destruct (IH (Inside _ _ _ _ _ _ D ltac:(known) O)) as (H1 & H2 & H3). split; [|now split]. apply One; [|reflexivity]. apply (parts_switch _ (filter (fun q => negb (blank_piece q)) ps)); [|exact A].
    apply nps_parts in H1. rewrite Forall_forall in *. intros x I1. apply filter_In in I1. now apply H1.
  - (* case *) intros i c parent prev ln tag a a' cs ps b fs c' D H [IH _] A Sd. split; [|intros []]. intros O. destruct (Body _ ps b fs c c' IH A (Inside _ _ _ _ _ _ D ltac:(known) O)) as (H1 & H2 & H3). split; [|now split]. now apply np_case.
  - (* replace *) intros i c parent prev ln tag a a' cs D. split; [|intros []]. intros O. split; [apply expr_nps|split; [constructor|reflexivity]].
  - (* nop *) intros i c parent prev ln tag a a' cs ps fs c' D H [IH _]. split; [|intros []]. intros O. exact (IH (Inside _ _ _ _ _ _ D ltac:(known) O)).
  - (* def *) intros c parent prev ln tag a a' cs ps b fs c' D H [IH _] A Sd. split; [|intros []]. intros O. destruct (Body _ ps b fs c c' IH A (Inside _ _ _ _ _ _ D ltac:(known) O)) as (H1 & H2 & H3). split; [constructor|]. split; [|exact H3]. apply Forall_app. split; [exact H2|]. constructor; [now apply or_pass_nested|constructor].
  - (* inner function *) intros c parent prev ln tag a a' cs ps b fs c' D H [IH _] A Sd. split; [|intros []]. intros O. destruct (Body _ ps b fs c c' IH A (Inside _ _ _ _ _ _ D ltac:(known) O)) as (H1 & H2 & H3). split; [|now split]. apply One; [|reflexivity]. apply nn_def. now apply or_pass_nested.
  - (* call *) intros i c parent prev ln tag a a' cs args x ps b fs c' D Ca Gx H [IH _] A Sd. split; [|intros []]. intros O. destruct (Body _ ps b fs c c' IH A (Inside _ _ _ _ _ _ D ltac:(known) O)) as (H1 & H2 & H3). split; [|now split]. apply One; [now apply nn_call|reflexivity].
  - (* block *) intros i c parent prev ln tag a cs name ps b fs D H [IH _] A Sd. split; [|intros []]. intros O. destruct (Body _ ps b fs c false IH A (InsideB _ _ _ _ _ D O)) as (H1 & H2 & H3). split; [apply expr_nps|]. split; [|exact H3]. apply Forall_app. split; [exact H2|]. constructor; [now apply or_pass_nested|constructor].
  - (* override *) intros i c parent prev ln tag a cs name lines ps b fs D H [IH _] A Dd. split; [|intros []]. intros O. destruct (Body _ ps b fs c true IH A (InsideB _ _ _ _ _ D O)) as (H1 & H2 & H3). split; [constructor|]. split; [|exact H3]. apply Forall_app. split; [exact H2|]. constructor; [|constructor]. apply nested_cons; [apply nn_python|now apply or_pass_nested].
  - (* extends *) intros i c parent prev ln tag a a' cs ps fs c' D H IH. split; [|intros []]. intros O. exfalso. inversion O as [| | |? ? ? ? Ne Ho Fc|? ? ? ? Py Na|? ? ? ? SS Na].
    + apply Ne. apply D.
    + apply (NotPlain tag (L "extends")); [known|apply D|exact Py].
    + apply (NotPlain tag (L "extends")); [known|apply D|now apply PlainRaw].
  - (* include *) intros i c parent prev ln tag a a' cs D. split; [|intros []]. intros O. split; [|split; [constructor|reflexivity]]. apply One; [apply nn_include|reflexivity].
  - (* import *) intros i c parent prev ln tag a a' cs alias D Al. split; [|intros []]. intros O. split; [|split; [constructor|reflexivity]]. apply One; [apply nn_import|reflexivity].
  - (* element *) intros i c parent prev ln tag a0 a cs g sorted shown more rest fs c' Py Ow ND Tc Pm Ss As Ma H IH. split; [|intros []]. intros O. destruct (IH (own_nodup _ _ _ Ow ND)) as [IH1 IH2].
    assert (FA : legal_attrs a0 -> Forall (tag_attr g) (map as_rstm (shown ++ more))).
    { intros Lk. rewrite map_app. apply Forall_app. split; [|now apply (more_good g a)]. apply (shown_attrs ln g sorted shown As). intros k v I1. apply (Lk k v). apply (own_in tag a0 a _ _ Ow). eapply Permutation_in; [symmetry; exact Pm|exact I1]. }
    assert (Plain : plain_element py html const scripts tag a0 -> Forall ordinary cs \/ html = false /\ ordinaries tag cs -> nps (RcStm (RText (L "<" ++ tag) g) :: simple shown ++ simple more ++ rest) /\ Forall fact_ok fs /\ c' = c).
    { intros (Lt & Nb & Ns & Lk & Nc & St) Fc. destruct (IH1 Fc Ns (fun h v => own_content _ _ _ Ow (Nc h v))) as (R1 & R2 & R3). split; [|now split].
      rewrite app_assoc, !simple_map, <- map_app, <- map_app. apply (R1 Lt Nb (St g (own_condition _ _ _ _ Ow Tc))). now apply FA. }
    inversion O as [| | |? ? ? ? Ne Ho Fc|? ? ? ? Py' Na Pe Hh Om|? ? ? ? SS Na Hs Lk Ab Rc].
    + apply Plain; [now apply Ho|now left].
    + apply Plain; [exact Pe|right; now split].
    + assert (g = None) as ->. { destruct (own_condition _ _ _ _ Ow Tc) as [_|V|x V]; [reflexivity| |]; destruct Ab; apply in_map_iff; eexists; (split; [|exact V]); reflexivity. }
      destruct (IH2 SS Hs) as (R1 & R2 & R3); [|reflexivity|].
      * destruct Rc as (Rc1 & Rc2). split; [|exact Rc2]. intros Hh x V. apply (Rc1 Hh). now apply (own_in tag a0 a).
      * split; [|now split]. destruct (raw_tag tag SS) as (Lt & Nb & _ & _). rewrite app_assoc, !simple_map, <- map_app, <- map_app. apply (R1 Lt Nb Logic.I). now apply FA.
  - intros i c ln tag a g cs x V Nx ND. split.
    + intros Fc Ns Hc. split; [|split; [constructor|reflexivity]]. apply (rest_between tag g [RcStm (RExpr x false)]); [apply expr_nps| |now apply Nraw]. intros [Hh Hv]. destruct (Hc Hh Hv) as [Ab|V0].
      * apply Ab. apply in_map_iff. now exists (L "py:content", x).
      * apply Nx. rewrite <- (get_attr_value _ _ _ ND V). now apply get_attr_value.
    + intros SS Hs (Rc & _) ->. split; [|split; [constructor|reflexivity]]. destruct Two as [Hh|Hh].
      * apply (rest_html tag [RExpr x false] Hh SS). constructor; [|constructor]. now apply Rc.
      * apply (rest_between tag None [RcStm (RExpr x false)]); [apply expr_nps|intros [X _]; congruence|intros [X _]; congruence].
  - intros i c ln tag a g t Nc C ND. split; intros; (split; [now apply rest_closed|split; [constructor|reflexivity]]).
  - intros i c ln tag a g cs ss Nc Ncs Sc SS H ND. split; [intros _ Ns; destruct Ns; tauto|]. intros _ _ (_ & Rc & _) ->. split; [|split; [constructor|reflexivity]]. destruct (Rc Sc) as [Hm Rs]. specialize (Rs ss H). unfold cdata_open, cdata_close.
    destruct Two as [Hh|Hh].
    + assert (seqb mode (L "xml") = false) as -> by (destruct (seqb_spec mode (L "xml")) as [Em|]; [|reflexivity]; rewrite Em in Hmode; cbn in Hmode; congruence). rewrite app_nil_r. cbn [app]. rewrite simple_map. now apply rest_html.
    + rewrite (Hm Hh), seqb_refl. rewrite simple_map, map_app, map_app, map_app, map_app. now apply rest_xml.
  - intros i c ln tag a g cs ps fs c' Nc Ncs Ns0 Nv H (IH1 & IH2 & IH3 & _) ND. split.
    + intros Fc Ns Hc. assert (Q : nps ps /\ Forall fact_ok fs /\ c' = c) by (destruct Fc as [Fc|[Hh Om]]; [now apply IH1|now apply IH2]). destruct Q as (H1 & H2 & H3). split; [|now split].
      apply rest_between; [exact H1| |now apply Nraw]. intros [Hh V]. apply Nv. split; [unfold is_html; congruence|exact V].
    + intros SS Hs (_ & _ & Rc) ->. destruct Hs as [Hs|Hh]; [destruct Ns0; now split|]. assert (Hsc : scripts = false) by (destruct scripts; [destruct Ns0; now split|reflexivity]).
      destruct (IH3 (Rc Hsc)) as ((ss & -> & Fs) & -> & ->). split; [now apply rest_html|split; [constructor|reflexivity]].
  - intros i c ln tag a g cs ps fs c' Nc Ncs Hh V H (IH1 & _) ND. split; [|intros SS; destruct (raw_tag tag SS) as (_ & _ & Nv & _); now destruct Nv].
    intros Fc Ns Hc. assert (Ht : html = true) by (unfold is_html in Hh; congruence). destruct Fc as [Fc|[X _]]; [|congruence]. destruct (IH1 Fc) as (H1 & H2 & H3). split; [|now split]. now apply rest_void.
  - intros i c marks parent prev. split; [intros _; repeat constructor|]. split; [intros _ _ _; repeat constructor|]. split; [intros _; split; [now exists []|now split]|]. intros _ _ ts ln l' E. destruct ts; discriminate.
  - intros i c parent prev ln t l ps fs c' H (IH1 & IH2 & IH3 & IH4). split; [|split; [|split]].
    + intros Fl. apply Forall_cons_iff in Fl. destruct Fl as [O _]. inversion O.
    + intros _ Hh O. inversion O as [|? ? ? On|? l1 l2 ts l0 Ft Ol]; [inversion On|]. subst. destruct (IH4 eq_refl Hh ts l2 l0 eq_refl Ft Ol) as ((ss & qs & -> & Fs & Gq) & H2 & H3). split; [|now split].
      assert (Eq : RcStm (RText (L "<![CDATA[") None) :: map RcStm ss ++ RcStm (RText (L "]]>") None) :: qs = (RcStm (RText (L "<![CDATA[") None) :: map RcStm ss ++ [RcStm (RText (L "]]>") None)]) ++ qs) by (cbn [app]; now rewrite <- app_assoc).
      change (nps (RcStm (RText (L "<![CDATA[") None) :: map RcStm ss ++ RcStm (RText (L "]]>") None) :: qs)). rewrite Eq. apply np_app; [|exact Gq]. apply section_nps; [exact Fs|]. rewrite Hh. apply cdata_written.
    + intros Fl. apply Forall_cons_iff in Fl. destruct Fl as [[] _].
    + intros _ Hh ts ln0 l' E Ft Ol. destruct ts as [|n ts].
      * cbn [app] in E. assert (t = L "]]>" /\ l = l') as [-> ->] by (split; congruence). destruct (IH2 eq_refl Hh Ol) as (H1 & H2 & H3). split; [|now split]. exists [], ps. split; [reflexivity|]. split; [constructor|exact H1].
      * apply Forall_cons_iff in Ft. destruct Ft as [Rn _]. cbn [app] in E. assert (n = DMark ln t) as -> by congruence. destruct Rn.
  - intros i c marks parent prev n l ps qs fs fs' c1 c2 Hm H (IHn & IHr) H' (IH1 & IH2 & IH3 & IH4). split; [|split; [|split]].
    + intros Fl. apply Forall_cons_iff in Fl. destruct Fl as [O Fl]. destruct (IHn O) as (H1 & H2 & ->). destruct (IH1 Fl) as (H3 & H4 & ->). split; [now apply np_app|]. split; [|reflexivity]. apply Forall_app. now split.
    + intros Em Hh O. inversion O as [|? ? ? On Ol|? l1 l2 ts l0 Ft Ol]; subst.
      * destruct (IHn On) as (H1 & H2 & ->). destruct (IH2 eq_refl ltac:(assumption) Ol) as (H3 & H4 & ->). split; [now apply np_app|]. split; [|reflexivity]. apply Forall_app. now split.
      * exfalso. destruct Hm as [Hm|Hm]; [discriminate|]. now apply Hm.
    + intros Fl. apply Forall_cons_iff in Fl. destruct Fl as [R Fl]. destruct (IHr R) as ((s1 & -> & F1) & -> & ->). destruct (IH3 Fl) as ((s2 & -> & F2) & -> & ->). split; [|now split]. exists (s1 ++ s2). rewrite map_app. split; [reflexivity|]. now apply Forall_app.
    + intros Em Hh ts ln0 l' E Ft Ol. destruct ts as [|m ts].
      * exfalso. cbn [app] in E. assert (n = DMark ln0 (L "]]>")) as -> by congruence. destruct Hm as [Hm|Hm]; [congruence|]. now apply Hm.
      * apply Forall_cons_iff in Ft. destruct Ft as [Rm Ft]. cbn [app] in E. assert (n = m /\ l = ts ++ DMark ln0 (L "]]>") :: l') as [-> El] by (split; congruence).
        destruct (IHr Rm) as ((s1 & -> & F1) & -> & ->). destruct (IH4 Em Hh ts ln0 l' El Ft Ol) as ((s2 & q2 & -> & F2 & Gq) & H2 & H3). split; [|now split]. exists (s1 ++ s2), q2. rewrite map_app, <- app_assoc. split; [reflexivity|]. split; [now apply Forall_app|exact Gq].
Qed.
End Docs.

Ltac known := vm_compute; tauto.
Section Whole.
Variable py : python.
Variable html : bool.
Variable const : str -> option M_Values.value.
Variable compile : str -> compiled.
Variable gen : str -> Prop.
Notation nested := (nested py html const).
Notation page := (page py html const).

Lemma functions_nested : forall fs, Forall (fact_ok py html const) fs -> Forall (fun db => nested (snd db)) (functions fs).
Proof. intros fs H. induction H as [|[d b|l] fs H0 H IH]; cbn [functions]; [constructor| |exact IH]. constructor; [exact H0|exact IH]. Qed.
Lemma extends_tells : forall autoblocks scripts mode i c parent prev ln tag a cs ps fs c', directive tag (L "extends") ->
  tells compile autoblocks scripts mode gen i c parent prev (DElem ln tag a cs) ps fs c' ->
  (exists href qs, ps = RcStm (RExtend href) :: qs /\ all_tell compile autoblocks scripts mode gen i true false tag [] cs qs fs c') \/
  (exists name qs b fs', c' = false /\ ps = [RcStm (RExpr (L "_kj_block_" ++ name ++ L "()") false)] /\ fs = fs' ++ [Function (L "_kj_block_" ++ name ++ L "()") (or_pass b)] /\
     all_tell compile autoblocks scripts mode gen i c false tag [] cs qs fs' false /\ assemble qs = Some b) \/
  (c' = true /\ exists qs fs', all_tell compile autoblocks scripts mode gen i c false tag [] cs qs fs' true).
Proof.
  intros autoblocks scripts mode i c parent prev ln tag a cs ps fs c' D0 T. remember (DElem ln tag a cs) as n eqn:En.
  destruct T; try discriminate En; injection En as -> -> -> ->; try (match goal with H : is_directive _ _ _ _ _ |- _ => destruct H as [D1 _]; exfalso; pose proof (P_XFun.directive_fun _ _ _ D0 D1) as X; discriminate X end).
  - right. left. exists name, ps, b, fs. repeat split; assumption.
  - right. right. split; [reflexivity|]. eexists. exists fs. eassumption.
  - left. eexists. eexists. split; [reflexivity|]. eassumption.
  - exfalso. match goal with H : plain_tag _ |- _ => apply (H _ D0) end. vm_compute. intuition.
Qed.
Lemma document_pages : forall s d r root, filter not_comment (d_children d) = [root] -> (html = true <-> is_html (s_mode s)) -> document_tells compile gen s d r ->
  ordinary_root py html const compile (s_autoblocks s) (s_cdata s) (s_mode s) root ->
  Forall (fun db => nested (snd db)) (r_functions r) /\ page (r_main r) /\ (s_fragment s = true -> ordinary_run py html const compile (s_autoblocks s) (s_cdata s) (s_mode s) root -> nested (r_main r)).
Proof.
  intros s d r root Er Hm D O. destruct D as [root' ps b fs child line Er' T A Hl Sd]. assert (root' = root) as -> by congruence. cbn [r_functions r_main].
  assert (Hmode : prefixb (L "html") (s_mode s) = html) by (unfold is_html in Hm; destruct html, (prefixb (L "html") (s_mode s)); intuition congruence).
  destruct O as [n O|ln tag a cs D0 Fc].
  - destruct (proj1 (proj1 (tells_nested py html const compile _ _ _ gen Hmode) _ _ _ _ _ _ _ _ T) O) as (H1 & H2 & ->). split; [now apply functions_nested|]. pose proof (nps_assemble _ _ _ _ _ H1 A) as Nb. split.
    + rewrite orb_false_r in Hl. destruct (s_fragment s); [subst line; now apply pg_nested|]. destruct line; [now apply pg_nested|]. cbn [app]. apply pg_line; [now exists (s_mode s), (d_dtd d)|exact Nb].
    + intros Ef _. rewrite Ef in Hl. cbn [orb] in Hl. now subst line.
  - assert (No : forall P : Prop, ordinary_run py html const compile (s_autoblocks s) (s_cdata s) (s_mode s) (DElem ln tag a cs) -> P) by (intros P O; exfalso; inversion O as [| | |? ? ? ? Ne Ho Fc'|? ? ? ? Py Na|? ? ? ? SS Na]; [now apply Ne|apply (Py _ D0); known|destruct D0 as [_ (pre & Et & _)]; destruct SS as [X|X]; rewrite X in Et; discriminate Et]).
    destruct (extends_tells _ _ _ _ _ _ _ _ _ _ _ _ _ _ D0 T) as [(href & qs & -> & T2)|[(name & qs & b' & fs' & -> & -> & -> & T2 & A2)|(-> & qs & fs' & T2)]];
      destruct (proj1 (proj2 (proj2 (tells_nested py html const compile _ _ _ gen Hmode)) _ _ _ _ _ _ _ _ _ T2) Fc) as (H1 & H2 & H3); [subst child| |discriminate].
    + split; [now apply functions_nested|].
      rewrite orb_true_r in Hl. subst line. cbn [app]. unfold assemble in A. cbn [attach] in A. destruct (attach qs) as [[[els|] r]|] eqn:Eq; try discriminate. injection A as <-.
      assert (Nr : nested r) by (apply (nps_assemble py html const qs); [exact H1|unfold assemble; now rewrite Eq]). split; [now apply pg_extend|]. intros _ O. now apply No.
    + split; [apply functions_nested; apply Forall_app; split; [exact H2|]; constructor; [|constructor]; apply or_pass_nested; now apply (nps_assemble py html const qs)|].
      assert (Nb : nested b) by (apply (nps_assemble py html const _ b (expr_nps py html const _) A)). split; [|intros _ O; now apply No].
      rewrite orb_false_r in Hl. destruct (s_fragment s); [subst line; now apply pg_nested|]. destruct line; [now apply pg_nested|]. cbn [app]. apply pg_line; [now exists (s_mode s), (d_dtd d)|exact Nb].
Qed.
End Whole.
