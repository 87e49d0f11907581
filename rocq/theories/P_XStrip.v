(** * py:strip *)

From Coq Require Import Ascii String List Arith NArith ZArith Bool Lia Permutation Sorted.
From Verif Require Import PyStr PyStrLemmas M_Values S_Values P_Values M_IR S_IR P_IR M_Exec S_Exec P_Exec P_Exec2 P_Exec3 P_Exec4 P_Exec5
  M_Text M_XText S_XText P_XText P_XText2 M_Entities S_Entities M_Dom M_XCompile S_XDoc P_XDoc P_XDoc2.
Import ListNotations.
Open Scope list_scope.

(** ** Sequences *)
Lemma means_app : forall py l1 l2 e, means py (l1 ++ l2) e = then_ (means py l1 e) (means py l2).
Proof.
  intros py. induction l1 as [|s l1 IH]; intros l2 e; cbn [app means].
  - unfold then_. cbn [rbind fst snd]. destruct (means py l2 e) as [[o e']|]; reflexivity.
  - unfold then_. destruct (meaning py s e) as [[o1 e1]|]; [|reflexivity]. cbn [rbind fst snd]. rewrite IH. unfold then_.
    destruct (means py l1 e1) as [[o2 e2]|]; [|reflexivity]. cbn [rbind rmap fst snd]. destruct (means py l2 e2) as [[o3 e3]|]; [|reflexivity].
    cbn [rmap fst snd]. now rewrite app_assoc.
Qed.
Definition loose (s : stm) : Prop := match s with SIf _ _ _ | SFor _ _ _ => False | _ => True end.
Lemma assemble_loose : forall A ps, Forall loose A -> assemble (map PcStm A ++ ps) = option_map (app A) (assemble ps).
Proof.
  induction A as [|s A IH]; intros ps F; cbn [map app].
  - destruct (assemble ps); reflexivity.
  - inversion F as [|? ? Fs FA]; subst. assert (E : forall q, assemble (PcStm s :: q) = option_map (cons s) (assemble q)) by (destruct s; try destruct Fs; reflexivity).
    rewrite E, IH by assumption. destruct (assemble ps); reflexivity.
Qed.
Lemma assemble_last : forall n ps B, length ps <= n -> Forall loose B -> assemble (ps ++ map PcStm B) = option_map (fun l => l ++ B) (assemble ps).
Proof.
  induction n as [|n IH]; intros ps B Hn FB.
  { destruct ps; [|cbn in Hn; lia]. cbn [app assemble option_map]. rewrite assemble_stms. reflexivity. }
  destruct ps as [|p ps]; [cbn [app assemble option_map]; now rewrite assemble_stms|]. cbn [length] in Hn.
  destruct p as [s|b|c b]; [|reflexivity|reflexivity].
  assert (G : option_map (cons s) (assemble (ps ++ map PcStm B)) = option_map (fun l => l ++ B) (option_map (cons s) (assemble ps))).
  { rewrite IH by (auto; lia). destruct (assemble ps); reflexivity. }
  destruct s; try exact G; (destruct ps as [|[s'|b'|c' b'] ps']; [|exact G| |exact G]);
    [destruct B as [|[] B]; cbn [map app assemble option_map] in *; try exact G; try reflexivity| |destruct B as [|[] B]; cbn [map app assemble option_map] in *; try exact G; try reflexivity|].
  all: cbn [app assemble]; rewrite IH by (auto; cbn [length] in Hn; lia); destruct (assemble ps'); reflexivity.
Qed.
Lemma assemble_between : forall A ps B ss, Forall loose A -> Forall loose B -> assemble (map PcStm A ++ ps ++ map PcStm B) = Some ss ->
  exists content, assemble ps = Some content /\ ss = A ++ content ++ B.
Proof.
  intros A ps B ss FA FB E. rewrite assemble_loose, (assemble_last (length ps)) in E by auto.
  destruct (assemble ps) as [c|]; [|discriminate]. exists c. split; [reflexivity|]. cbn [option_map] in E. congruence.
Qed.

(** ** Parts of tags *)
Inductive tag_part (g : option str) : stm -> stm -> Prop :=
| tp_text : forall t, tag_part g (SText t g) (SText t None)
| tp_attr : forall k v m, tag_part g (SAttr k v g m) (SAttr k v None m)
| tp_attrs : forall x m, tag_part g (SAttrs x g m) (SAttrs x None m).
Lemma part_loose : forall g A A', Forall2 (tag_part g) A A' -> Forall loose A /\ Forall loose A'.
Proof. intros g A A' F. induction F as [|s s' A A' P F [IH1 IH2]]; [split; constructor|]. split; constructor; try assumption; now destruct P. Qed.
(** Shown as without the condition, and with nothing changed; or not at all. *)
Lemma part_true : forall py g c A A' e, truthy_guard g = Some c -> Forall2 (tag_part g) A A' -> ev_bool py e c = Ok true ->
  means py A e = means py A' e /\ (forall o e', means py A e = Ok (o, e') -> e' = e).
Proof.
  intros py g c A A' e Tg F B. induction F as [|s s' A A' P F [IH1 IH2]]; cbn [means].
  - split; [reflexivity|]. intros o e' E. congruence.
  - assert (M : meaning py s e = meaning py s' e /\ (forall o e', meaning py s e = Ok (o, e') -> e' = e)).
    { destruct P as [t|k v m|x m]; cbn [meaning]; unfold under; rewrite Tg, B; cbn [rbind].
      - split; [reflexivity|]. intros o e' E. congruence.
      - split; [reflexivity|]. intros o e'.
        match goal with |- rbind ?m _ = _ -> _ => destruct m as [[o1 e1]|]; [|discriminate] end. cbn [rbind fst].
        destruct (collect o1); [|discriminate]. cbn [rbind]. destruct (render_attrs _ _); [|discriminate]. cbn [rmap]. intros E. congruence.
      - split; [reflexivity|]. intros o e'. destruct (ev_attrs py e x) as [at1|]; [|discriminate]. cbn [rbind].
        destruct (render_attrs _ _); [|discriminate]. cbn [rmap]. intros E. congruence. }
    destruct M as [M1 M2]. rewrite <- M1. unfold then_. destruct (meaning py s e) as [[o1 e1]|] eqn:Em; [|split; [reflexivity|discriminate]].
    cbn [rbind fst snd]. rewrite (M2 o1 e1 eq_refl), IH1. split; [reflexivity|]. intros o e'. rewrite <- IH1.
    destruct (means py A e) as [[o2 e2]|] eqn:E2; [|discriminate]. cbn [rmap fst snd]. intros E. assert (e' = e2) by congruence. subst. now apply (IH2 o2).
Qed.
Lemma part_false : forall py g c A A' e, truthy_guard g = Some c -> Forall2 (tag_part g) A A' -> ev_bool py e c = Ok false ->
  means py A e = Ok ([], e).
Proof.
  intros py g c A A' e Tg F B. induction F as [|s s' A A' P F IH]; [reflexivity|]. cbn [means].
  assert (M : meaning py s e = Ok ([], e)) by (destruct P; cbn [meaning]; unfold under; rewrite Tg, B; reflexivity).
  rewrite M. unfold then_. cbn [rbind fst snd]. rewrite IH. reflexivity.
Qed.
Lemma attrs_parts : forall compile mode ln g l ss, attrs_say compile mode ln g l ss ->
  exists ss', Forall2 (tag_part g) ss ss' /\ attrs_say compile mode ln None (without (L "py:strip") l) ss'.
Proof.
  intros compile mode ln g l ss H. induction H as [|k v l ss ps Sp R H (ss' & F & H')|k v l ps ss Ns R H (ss' & F & H')].
  - exists []. split; constructor.
  - exists ss'. split; [exact F|]. unfold without in *. cbn [filter fst]. destruct (seqb_spec (L "py:strip") k) as [<-|Ne]; cbn [negb]; [exact H'|].
    eapply as_special; [exact Sp|exact R|exact H'].
  - exists (SAttr k (map (text_stm TK_attr) ps) None mode :: ss'). split; [constructor; [constructor|exact F]|].
    unfold without in *. cbn [filter fst]. destruct (seqb_spec (L "py:strip") k) as [<-|Ne]; cbn [negb].
    + exfalso. apply Ns. right. now right.
    + now apply as_attr.
Qed.

Section Strip.
Variable compile : str -> compiled.
Variable autoblocks : list str.
Variable cdata_scripts : bool.
Variable mode : str.
Notation Says := (says compile autoblocks cdata_scripts mode).
Notation RestSays := (rest_says compile autoblocks cdata_scripts mode).
Notation AllSay := (all_say compile autoblocks cdata_scripts mode).
Notation ContentSays := (content_says compile autoblocks cdata_scripts mode).

Lemma value_without : forall k k' a v, k <> k' -> (value_at k (without k' a) v <-> value_at k a v).
Proof.
  intros k k' a v Ne. unfold value_at, without. rewrite filter_In. cbn [fst]. split; [intuition|]. intros H. split; [exact H|].
  destruct (seqb_spec k' k); [congruence|reflexivity].
Qed.
Lemma absent_without : forall k k' a, k <> k' -> (absent k (without k' a) <-> absent k a).
Proof.
  intros k k' a Ne. unfold absent. split; intros H I1; apply H; apply in_map_iff in I1 as ([k1 v] & E & I1); cbn [fst] in E; subst k1; apply in_map_iff; exists (k, v); split; auto.
  - apply (value_without k k' a v Ne). exact I1.
  - apply (value_without k k' a v Ne) in I1. exact I1.
Qed.
Lemma no_content_without : forall a, no_content_attr (without (L "py:strip") a) <-> no_content_attr a.
Proof. intros a. unfold no_content_attr. rewrite absent_without, value_without by discriminate. reflexivity. Qed.
Lemma absent_self : forall k a, absent k (without k a).
Proof.
  intros k a I1. apply in_map_iff in I1 as ([k1 v] & E & I1). cbn [fst] in E. subst. unfold without in I1. apply filter_In in I1 as [_ E]. cbn [fst] in E.
  rewrite seqb_refl in E. discriminate.
Qed.
Lemma nodup_without : forall k a, NoDup (map fst a) -> NoDup (map fst (without k a)).
Proof. intros k a ND. now apply filter_nodup_keys. Qed.

(** An element is its start tag, its content and its end tag; without py:strip, the same without conditions. *)
Theorem element_parts : forall parent prev ln tag a cs ps, prefixb (L "py:") tag = false -> Says parent prev (DElem ln tag a cs) ps ->
  exists g A A' B B' cps, tag_condition a g /\ ps = map PcStm A ++ cps ++ map PcStm B /\ Forall2 (tag_part g) A A' /\ Forall2 (tag_part g) B B' /\
    ContentSays tag a cs cps /\ Says parent prev (DElem ln tag (without (L "py:strip") a) cs) (map PcStm A' ++ cps ++ map PcStm B').
Proof.
  intros parent prev ln tag a cs ps Py S. inversion S; subst; try discriminate Py; try (match goal with E : L _ = tag |- _ => subst tag; discriminate Py end).
  match goal with H : attrs_say _ _ _ _ _ _ |- _ => destruct (attrs_parts _ _ _ _ _ _ H) as (shown' & Fs & As') end.
  match goal with H : more_attrs _ _ _ _ |- _ => rename H into Ma end.
  assert (M : exists more', Forall2 (tag_part g) more more' /\ more_attrs mode None (without (L "py:strip") a) more').
  { destruct Ma as [H|x H Ne].
    - exists []. split; [constructor|]. apply ma_none. now rewrite absent_without, value_without by discriminate.
    - exists [SAttrs x None mode]. split; [repeat constructor|]. apply ma_some; [|exact Ne]. now apply value_without. }
  destruct M as (more' & Fm & Ma').
  match goal with H : rest_says _ _ _ _ _ _ _ _ _ _ |- _ => rename H into Rs end.
  assert (R : exists A A' cps B B', rest = map PcStm A ++ cps ++ map PcStm B /\ Forall2 (tag_part g) A A' /\ Forall2 (tag_part g) B B' /\
    ContentSays tag a cs cps /\ RestSays ln tag (without (L "py:strip") a) None cs (map PcStm A' ++ cps ++ map PcStm B')).
  { inversion Rs; subst.
    - exists [SText (L ">") g], [SText (L ">") None], [PcStm (SExpr c false)], [SText (L "</" ++ tag ++ L ">") g], [SText (L "</" ++ tag ++ L ">") None].
      split; [reflexivity|]. split; [repeat constructor|]. split; [repeat constructor|]. split; [now apply ct_expr|].
      apply rs_content; [now apply value_without|assumption].
    - exists [SText t g], [SText t None], [], [], []. split; [reflexivity|]. split; [repeat constructor|]. split; [constructor|]. split; [now apply ct_empty|].
      apply rs_empty; [now apply no_content_without|assumption].
    - exists [SText (L ">") g], [SText (L ">") None], (map PcStm (cdata_open mode ++ ss ++ cdata_close mode)), [SText (L "</" ++ tag ++ L ">") g], [SText (L "</" ++ tag ++ L ">") None].
      split; [reflexivity|]. split; [repeat constructor|]. split; [repeat constructor|]. split; [now apply ct_script|].
      apply rs_script; auto. now apply no_content_without.
    - exists [SText (L ">") g], [SText (L ">") None], ps, [SText (L "</" ++ tag ++ L ">") g], [SText (L "</" ++ tag ++ L ">") None].
      split; [reflexivity|]. split; [repeat constructor|]. split; [repeat constructor|]. split; [now apply ct_children|].
      apply rs_children; auto. now apply no_content_without.
    - exists [SText (L ">") g], [SText (L ">") None], ps, [], []. cbn [map]. rewrite app_nil_r.
      split; [reflexivity|]. split; [repeat constructor|]. split; [constructor|]. split.
      + apply ct_children; auto. intros [_ SS]. now apply (script_not_void tag).
      + apply rs_void_children; auto. now apply no_content_without. }
  destruct R as (A & A' & cps & B & B' & -> & FA & FB & Ct & Rs').
  exists g, (SText (L "<" ++ tag) g :: shown ++ more ++ A), (SText (L "<" ++ tag) None :: shown' ++ more' ++ A'), B, B', cps.
  split; [assumption|]. split; [cbn [map app]; rewrite !map_app, <- !app_assoc; reflexivity|].
  split; [constructor; [constructor|]; apply Forall2_app; [exact Fs|]; now apply Forall2_app|]. split; [exact FB|]. split; [exact Ct|].
  cbn [map app]. rewrite !map_app, <- !app_assoc.
  eapply sy_elem with (sorted := without (L "py:strip") sorted); eauto.
  - now apply nodup_without.
  - apply tc_none, absent_self.
  - now apply filter_perm.
  - now apply filter_sorted.
Qed.

(** The reading is unique, since the compiler computes it. *)
Lemma says_unique : forall parent prev n ps ps',
  Says parent prev n ps -> Says parent prev n ps' -> ps = ps'.
Proof.
  intros parent prev n ps ps' S S'.
  assert (P : exists p, parent_tag p = parent) by (destruct parent as [|c r]; [now exists InDocument|now exists (InElement (c :: r) [])]).
  destruct P as [p Hp].
  pose proof (compiles_says compile (fun _ => []) autoblocks cdata_scripts mode (fun _ => True) (fun _ => Logic.I)) as [C _].
  destruct (C _ _ _ _ S p Hp (Cst [] [] false false 0)) as (ns & s & E & Pn & _).
  destruct (C _ _ _ _ S' p Hp (Cst [] [] false false 0)) as (ns' & s' & E' & Pn' & _).
  assert (ns' = ns) by congruence. subst. congruence.
Qed.
End Strip.
