(** * Proofs: properly nested output, whole templates *)

From Coq Require Import Ascii String List Arith NArith ZArith Bool Lia.
From Verif Require Import PyStr PyStrLemmas M_Values S_Values M_IR M_Template S_Template P_Template M_Text M_XText M_Entities S_Entities M_Doctype M_Dom
  S_XDoc S_XFun M_Run M_XRun S_XRun S_Markup P_Markup S_Nested P_Nested S_NestRun S_Run P_NestRun P_NestRun3 P_NestRun4 P_Refused.
Import ListNotations.
Open Scope list_scope.

Lemma last_ones_forall : forall (P : str * (str * dcode) -> Prop) l, Forall P l -> Forall P (last_ones l).
Proof.
  intros P l H. unfold last_ones. apply sort_forall. assert (Q : forall d, Forall P d -> Forall P (fold_left (fun d kf => set (fst kf) (snd kf) d) l d)); [|apply Q; constructor].
  induction H as [|[k f] l H0 H IH]; intros d Hd; cbn [fold_left]; [exact Hd|]. apply IH. now apply forall_set.
Qed.

Section Whole.
Variable expat : str -> result (list event).
Variable compile : str -> compiled.
Variable exec_module : list (list str) -> list (str * M_Values.value).
Variable gen : str -> Prop.
Variable py : python.
Variable html : bool.
Variable F : str -> Prop.
Variable const : str -> option M_Values.value.
Hypothesis Hm : forall l, safe_objects html F (exec_module l).
Notation main := (L "__main__").
Notation safe_decl := (safe_decl py html F const).
Notation safe_rstm := (safe_rstm py html F const).
Notation nested := (nested py html const).
Notation page := (page py html const).

Lemma objects_ok : forall l, safe_objects html F l -> dict_ok py html F const 0 (objects l).
Proof.
  intros l H. unfold objects, dict_ok. apply Forall_map. eapply Forall_impl; [|exact H]. intros [k v] (H1 & H2 & H3). cbn [fst snd] in *. split; [left; exact H1|]. split; [intros E; now destruct H3|intros X; now destruct H2].
Qed.
(** The class of a source. *)
Lemma source_class : forall fragment x c, ordinary_source expat compile gen py html F const fragment x -> source_tells expat compile exec_module gen x c ->
  class_ok py html F const c /\ main_ok py html F const fragment c.
Proof.
  intros fragment x c (Og & Or & Od) T. destruct T as [r c Hr Hc]. specialize (Or r Hr). destruct Or as (Sm & Sb & Sf). destruct Hr as [d r Ed Dt]. destruct Hc as [l Hl]. destruct Hl as [l El Hb].
  assert (Hd : Forall (fun db => nested (snd db)) (r_functions r) /\ page (r_main r) /\ (fragment = true -> nested (r_main r))).
  { assert (Hr : exists root, filter not_comment (d_children d) = [root]) by (destruct Dt as [root ps b fs child line Er]; now exists root). destruct Hr as [root Er]. destruct (Od d root Ed Er) as [Hmode Ho].
    assert (Oroot : ordinary_root py html const compile (x_autoblocks x) (x_cdata x) (rendering_mode (x_mode x) (d_dtd d)) root) by (destruct fragment; [apply ort_plain; apply Ho|exact Ho]).
    destruct (document_pages py html const compile gen (settings_of x d) d r root Er Hmode Dt Oroot) as (H1 & H2 & H3). split; [exact H1|]. split; [exact H2|]. intros ->. now apply H3. }
  clear Dt Od. destruct Hd as (Nf & Pm & Nm).
  (* every function *)
  assert (All : Forall (fun kf => safe_decl (fst (snd kf)) /\ Forall safe_rstm (snd (snd kf)) /\ (nested (snd (snd kf)) \/ fst kf = main /\ snd (snd kf) = or_pass (r_main r))) (map with_name l)).
  { apply Forall_map. eapply Forall_impl; [|exact Hb]. intros [k b] (l1 & l2 & El2 & Nl2). cbn [with_name fst snd] in *.
    assert (I1 : In (k, b) (r_functions r ++ [(L "__main__()", or_pass (r_main r))])) by (rewrite El2; apply in_or_app; right; now left).
    apply in_app_or in I1. destruct I1 as [I1|[E|[]]].
    - rewrite Forall_forall in Sf, Nf. destruct (Sf _ I1) as [S1 S2]. split; [exact S1|]. split; [exact S2|]. left. exact (Nf _ I1).
    - injection E as <- <-. split; [exact Sm|]. split; [destruct (r_main r); [repeat constructor|exact Sb]|]. right. now split. }
  apply last_ones_forall in All. unfold from_ir. split.
  - split; cbn [methods base_globals].
    + eapply Forall_impl; [|exact All]. intros [k [d0 b]] (H1 & H2 & H3) Nk. cbn [fst snd] in *. destruct H3 as [H3|[E _]]; [|contradiction]. split; [exact H1|]. now split.
    + apply forall_update; apply objects_ok; [exact Og|apply Hm].
  - intros d0 b E. cbn [methods] in E. apply get_some_in in E. rewrite Forall_forall in All. destruct (All _ E) as (H1 & H2 & H3). cbn [fst snd] in *. split; [exact H1|]. split; [exact H2|]. destruct H3 as [H3|[_ ->]].
    + destruct fragment; [exact H3|now apply pg_nested].
    + destruct fragment; [apply or_pass_nested; now apply Nm|]. destruct (r_main r) as [|s b0]; [apply pg_nested; apply nn_pass|exact Pm].
Qed.

Theorem sources_nested : forall sources depth x context out,
  generated_names py gen -> (forall l, object_names (exec_module l)) ->
  (forall fragment name x, sources fragment name = Ok x -> a_source expat compile gen py x) ->
  a_source expat compile gen py x -> object_names context ->
  gentle_python py html F -> fixed_names F const context -> safe_objects html F context ->
  (forall fragment name x, sources fragment name = Ok x -> ordinary_source expat compile gen py html F const fragment x) ->
  ordinary_source expat compile gen py html F const false x ->
  rbind (xml_file expat compile exec_module x) (fun f =>
    run_file py (fun fragment name => rbind (sources fragment name) (xml_file expat compile exec_module)) depth f context) = Ok out ->
  page_text html out.
Proof.
  intros sources depth x context out Hg Hn Hs Hx Hc G [Fn Cn] Sc Os Ox E.
  destruct (sources_mean expat compile (fun _ => Ok []) exec_module gen py Hn Hg sources depth x context Hs Hx Hc) as (load & Hl & [(c & Tc & Er)|(_ & e & Er)]); cbv zeta in Er; rewrite Er in E; [|discriminate].
  destruct (source_class false x c Ox Tc) as [Cc Cm].
  assert (Hload : forall fragment name c, load fragment name = Ok c -> class_ok py html F const c /\ main_ok py html F const fragment c).
  { intros fragment name c0 El. specialize (Hl fragment name). destruct (sources fragment name) as [x0|e] eqn:Es; [|congruence]. destruct Hl as [(c1 & El1 & T1)|(_ & e & El1)]; [|congruence]. assert (c1 = c0) as -> by congruence. apply (source_class fragment x0); [now apply (Os fragment name)|exact T1]. }
  assert (Co : forall k v, const k = Some v -> ~ In k own_names) by (intros k v Ek; apply (Cn k v Ek)).
  apply (template_nested py html F const Fn Co G load Hload depth c (objects context)); [exact Cc|exact Cm|now apply objects_ok| | |exact E].
  - intros k v Ek. destruct (Cn k v Ek) as [_ Eg]. unfold objects. clear -Eg. induction context as [|[k' v'] l IH]; [discriminate|]. cbn [map get fst snd] in *. destruct (seqb k k'); [congruence|now apply IH].
  - unfold a_dict, keys, objects. rewrite map_map. cbn [fst]. apply Hc.
Qed.
End Whole.
