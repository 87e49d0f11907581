(** * Whole templates: a template with nothing but its body *)

From Coq Require Import Ascii String List NArith ZArith Bool Lia Arith.
From Verif Require Import PyStr PyStrLemmas M_Values P_Values M_IR S_IR M_Template M_Run S_Run S_Template P_Template P_Run1 P_Run3.
From Verif Require M_Exec P_Exec.
Import ListNotations.
Open Scope list_scope.

Lemma rmap_twice : forall A B C (f : A -> B) (g : B -> C) r, rmap g (rmap f r) = rmap (fun x => g (f x)) r.
Proof. now intros A B C f g [x|e]. Qed.
Lemma main_only : forall py files depth ln mp l1 b given module context ss, structure b = Some ss -> existsb says_something ss = true ->
  bind_params py (L "__main__()") [] = Ok [] ->
  exists h load, globals _ _ h 0 = init_globals _ _ 0 (from_ir _ _ [(L "__main__", (L "__main__()", ss))] (objects given) (objects module)) (objects context) /\
  file_means py files (S depth) (TemplateNode ln mp [NDef l1 false (L "__main__()") b], given, module) context =
  rmap (fun ow => render [VFlat (fst ow)])
    (means py load (apply py load depth) (Place 0 [0]) ss (World h [Frame (flat_map (binds py) ss) []])).
Proof.
  intros py files depth ln mp l1 b given module context ss Hs Hn Hb. unfold file_means, meaning_of, directive_class. cbn [defs functions_of]. rewrite Hs. cbn [S_Exec.obind option_map].
  assert (or_pass ss = ss) as -> by (destruct ss; [discriminate|reflexivity]). unfold not_empty. rewrite Hn. cbn [S_Exec.obind option_map].
  change (fun_name (L "__main__()")) with (L "__main__"). cbn [rbind].
  unfold template_means, new. cbn [length app]. match goal with |- context [main_of py ?h 0] => exists h end. eexists. split; [reflexivity|].
  unfold main_of, getattr, attrs. cbn [nth_error i_attrs]. rewrite get_bound. cbn [rbind].
  unfold last_ones. cbn [fold_left fst snd set]. change (sort_attrs [(L "__main__", ?x)]) with [(L "__main__", x)]. 
  unfold from_ir. cbn [methods get]. rewrite seqb_refl. cbn [option_map rbind].
  unfold tpl_callable. cbn [target f_code rmap fst snd rbind f_inst]. unfold call_function. cbn [fst snd bind_args map]. unfold bind_args. cbn [map]. rewrite Hb. cbn [rbind map rseq].
  cbn [apply w_heap w_frames length app map]. rewrite rmap_twice. reflexivity.
Qed.

(** A name that the body binds somewhere has no value before. *)
Lemma unbound_before : forall py files depth ln mp l1 l2 x safe b given module context ss, structure b = Some ss ->
  bind_params py (L "__main__()") [] = Ok [] -> parse py x = EName x -> In x (flat_map (binds py) ss) ->
  file_means py files (S depth) (TemplateNode ln mp [NDef l1 false (L "__main__()") (NExpr l2 x safe :: b)], given, module) context =
  Raise "UnboundLocalError".
Proof.
  intros py files depth ln mp l1 l2 x safe b given module context ss Hs Hb Hx Hi.
  assert (Hs' : structure (NExpr l2 x safe :: b) = Some (RExpr x safe :: ss)).
  { unfold structure in *. cbn [pieces_of piece_of S_Exec.obind]. destruct (pieces_of b) as [ps|]; [|discriminate]. cbn [S_Exec.obind option_map] in *.
    unfold assemble in *. cbn [attach]. destruct (attach ps) as [[[els|] r]|]; [discriminate| |discriminate]. congruence. }
  destruct (main_only py files depth ln mp l1 _ given module context _ Hs' eq_refl Hb) as (h & load & _ & ->).
  cbn [means]. unfold then_. cbn [meaning]. unfold show_value. rewrite Hx. unfold evalue. rewrite Hx. cbn [eval]. unfold lookup. cbn [w_frames p_scopes find_name nth_error fr_names fr_vars].
  cbn [flat_map binds app]. assert (smem x (flat_map (binds py) ss) = true) as -> by now apply smem_In. reflexivity.
Qed.
(** After a py:with it has the empty tuple. *)
Lemma unit_after : forall py files depth ln mp l1 l2 l3 l4 x e t v given module context,
  bind_params py (L "__main__()") [] = Ok [] -> parse py x = EName x -> parse py e = EFun [] (fun _ => Ok v) ->
  file_means py files (S depth) (TemplateNode ln mp [NDef l1 false (L "__main__()")
    [NWith l2 [(x, e)] [NText l3 t None]; NExpr l4 x true]], given, module) context = Ok (t ++ L "()").
Proof.
  intros py files depth ln mp l1 l2 l3 l4 x e t v given module context Hb Hx He.
  destruct (main_only py files depth ln mp l1 [NWith l2 [(x, e)] [NText l3 t None]; NExpr l4 x true] given module context
    [RWith [(x, e)] [RText t None]; RExpr x true] eq_refl eq_refl Hb) as (h & load & _ & ->).
  cbn [flat_map binds app map fst]. unfold means, then_. cbn [meaning assigns]. rewrite He. cbn [eval reads map rmap rbind].
  unfold set_name, under. cbn [p_scopes nth_error w_frames w_heap put_frame fr_names fr_vars set truthy_guard rbind rmap fst snd]. unfold then_. cbn [rbind rmap fst snd app].
  unfold old_values, local_value. cbn [map fst p_scopes nth_error w_frames fr_vars get set_names snd]. unfold set_name. cbn [p_scopes nth_error w_frames w_heap put_frame fr_names fr_vars set].
  rewrite seqb_refl. unfold show_value. rewrite Hx. unfold evalue. rewrite Hx. cbn [eval]. unfold lookup. cbn [w_frames p_scopes find_name nth_error fr_names fr_vars get].
  cbn [smem existsb]. rewrite seqb_refl. cbn [orb rmap rbind as_value val fst snd]. unfold render, tpl_iter. cbn [fst snd app].
  reflexivity.
Qed.

Lemma objects_dict : forall C l, object_names l -> a_dict (objects (code := C) l).
Proof. intros C l [H _]. unfold a_dict, keys, objects. rewrite map_map. exact H. Qed.
Lemma render_flat : forall l, render [VFlat l] = render l.
Proof. intros l. rewrite !render_text. cbn [flat_map]. rewrite app_nil_r. unfold S_Values.text_of. pose proof (leaves_flat l) as E. cbn [flat_map] in E. rewrite app_nil_r in E. rewrite E. clear E.
  induction l as [|v l IH]; [reflexivity|]. cbn [flat_map]. now rewrite flat_map_app, IH. Qed.
(** A name of the context that the body does not bind. *)
Lemma context_shown : forall py files depth ln mp l1 l2 x v b given module context ss o, structure b = Some ss ->
  bind_params py (L "__main__()") [] = Ok [] -> parse py x = EName x -> ~ In x (flat_map (binds py) ss) ->
  object_names given -> object_names module -> object_names context -> In (x, v) context -> x <> L "_" -> x <> L "value_of" ->
  file_means py files (S depth) (TemplateNode ln mp [NDef l1 false (L "__main__()") (NExpr l2 x true :: b)], given, module) context = Ok o ->
  exists o', o = render [v] ++ o'.
Proof.
  intros py files depth ln mp l1 l2 x v b given module context ss o Hs Hb Hx Hi Gg Gm Gc Hv N1 N2.
  assert (Hs' : structure (NExpr l2 x true :: b) = Some (RExpr x true :: ss)).
  { unfold structure in *. cbn [pieces_of piece_of S_Exec.obind]. destruct (pieces_of b) as [ps|]; [|discriminate]. cbn [S_Exec.obind option_map] in *.
    unfold assemble in *. cbn [attach]. destruct (attach ps) as [[[els|] r]|]; [discriminate| |discriminate]. congruence. }
  destruct (main_only py files depth ln mp l1 _ given module context _ Hs' eq_refl Hb) as (h & load & Hg & ->).
  cbn [means]. unfold then_. cbn [meaning]. unfold show_value. rewrite Hx. unfold evalue. rewrite Hx. cbn [eval]. unfold lookup. cbn [w_frames p_scopes find_name nth_error fr_names fr_vars w_heap p_inst].
  cbn [flat_map binds app]. apply smem_notIn in Hi. rewrite Hi. unfold resolve. rewrite Hg, get_init; [|split|].
  - destruct (seqb_spec x (L "value_of")); [contradiction|]. destruct (seqb_spec x (L "_")); [contradiction|]. rewrite get_first; [|split|].
    + assert (get x (objects (code := dcode) context) = Some (val v)) as ->.
      { apply get_in; [apply objects_dict; exact Gc|]. unfold objects. apply (in_map (fun kv => (fst kv, val (code := dcode) (snd kv)))) in Hv. exact Hv. }
      cbn [rmap rbind as_value val fst snd]. match goal with |- context [means py load ?a ?b ss ?c] => destruct (means py load a b ss c) as [[o1 w1]|] end; cbn [rmap rbind fst snd]; [|discriminate].
      intros E. assert (o = render [VFlat ([v] ++ o1)]) as -> by congruence. rewrite render_flat. rewrite P_Exec.render_app. eexists. reflexivity.
    + repeat constructor. intros [].
    + apply update_dict. apply objects_dict. exact Gg.
    + apply objects_dict. exact Gc.
  - repeat constructor. intros [].
  - apply update_dict. apply objects_dict. exact Gg.
  - apply objects_dict. exact Gc.
Qed.
