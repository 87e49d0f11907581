(** * Lemmas on messages *)

From Coq Require Import Ascii String List NArith ZArith Bool Lia Arith.
From Verif Require Import PyStr PyStrLemmas M_Values M_IR M_Exec S_IR M_Text M_XText M_Dom M_XCompile M_I18n S_XDoc S_XFun S_I18n
  P_IR P_IR3 P_Dom P_XText2 P_XDoc P_XDoc2 P_XFun P_XFun2.
Import ListNotations.
Open Scope list_scope.

(** ** In the generated lines *)
Definition stmt_calls (ln : nat) (p : nat * pstmt) : list (nat * str) :=
  match snd p with PGettext _ m => [(ln, m)] | _ => [] end.
Definition item_calls (i : item) : list (nat * str) :=
  match i with ILines ln ps => flat_map (stmt_calls ln) ps | _ => [] end.
Lemma gettext_app : forall a b, gettext_calls (a ++ b) = gettext_calls a ++ gettext_calls b.
Proof. induction a as [|[i ln p] a IH]; intros b; [reflexivity|]. cbn [app gettext_calls]. destruct p; rewrite IH; reflexivity. Qed.
Lemma generate_calls : forall l k, gettext_calls (generate_from k l) = flat_map item_calls l.
Proof.
  induction l as [|i l IH]; intros k; [reflexivity|]. destruct i as [| |ln t g|ln ps]; cbn [generate_from flat_map item_calls app]; try apply IH.
  rewrite gettext_app, IH. f_equal. induction ps as [|[j p] ps IHp]; [reflexivity|]. cbn [map flat_map fst snd gettext_calls].
    unfold stmt_calls at 1. cbn [snd]. destruct p; cbn [app]; rewrite IHp; reflexivity.
Qed.
Lemma optimize_calls : forall l, flat_map item_calls (optimize l) = flat_map item_calls l.
Proof.
  intros l. rewrite optimize_ojoin. induction l as [|i l IH]; [reflexivity|]. destruct i as [| |ln t g|ln ps]; cbn [ojoin flat_map item_calls app]; try (now rewrite IH).
  destruct (ojoin l) as [|[| |ln2 t2 g2|] r]; try exact IH. destruct (oseqb g g2); exact IH.
Qed.
Lemma go_iter : forall l, (fix go (l : list node) : list item := match l with [] => [] | m :: l' => iter m ++ go l' end) l = flat_map iter l.
Proof. induction l as [|n l IH]; [reflexivity|]. cbn [flat_map]. now rewrite <- IH. Qed.
Lemma go_messages : forall l, (fix go (l : list node) : list (nat * str) := match l with [] => [] | m :: l' => node_messages m ++ go l' end) l = flat_map node_messages l.
Proof. induction l as [|n l IH]; [reflexivity|]. cbn [flat_map]. now rewrite <- IH. Qed.
Lemma body_calls : forall l, Forall (fun n => flat_map item_calls (iter n) = node_messages n) l ->
  flat_map item_calls (optimize (flat_map iter l)) = flat_map node_messages l.
Proof.
  intros l F. rewrite optimize_calls. induction F as [|n l H F IH]; [reflexivity|]. cbn [flat_map]. rewrite flat_map_app, IH, H. reflexivity.
Qed.
Lemma no_calls : forall ln ps, (forall g m, ~ In (PGettext g m) ps) -> flat_map (stmt_calls ln) (at0 ps) = [].
Proof.
  intros ln ps. unfold at0. induction ps as [|p ps IH]; intros H; [reflexivity|]. cbn [map flat_map]. rewrite IH.
  - unfold stmt_calls. cbn [snd]. destruct p; try reflexivity. exfalso. eapply H. now left.
  - intros g m I1. eapply H. right. exact I1.
Qed.
Lemma iter_calls : forall n, flat_map item_calls (iter n) = node_messages n.
Proof.
  induction n using node_ind'; cbn [iter node_messages]; rewrite ?go_iter, ?go_messages;
    try match goal with F : Forall _ _ |- _ => apply body_calls in F end;
    try (cbn [flat_map item_calls at0 map stmt_calls snd app]; rewrite ?flat_map_app; cbn [flat_map item_calls at0 map stmt_calls snd app]; rewrite ?app_nil_r; (reflexivity || assumption)).
  - (* def *) match goal with F : flat_map item_calls (optimize _) = _ |- _ => rewrite <- F end.
    destruct (optimize (flat_map iter b)); destruct i; cbn [flat_map item_calls at0 map stmt_calls snd app]; rewrite ?flat_map_app; cbn; rewrite ?app_nil_r; reflexivity.
  - (* with *) cbn [flat_map item_calls]. rewrite flat_map_app, H. cbn [flat_map item_calls at0 map stmt_calls snd app]. rewrite ?app_nil_r.
    change (flat_map (stmt_calls ln) (at0 (PPushWith (map fst v) :: map (fun kv => PAssign (fst kv) (snd kv)) v)) ++ flat_map node_messages b = flat_map node_messages b).
    rewrite no_calls; [reflexivity|]. intros g m [E|I1]; [discriminate|]. apply in_map_iff in I1 as (kv & E & _). discriminate.
  - (* trans *) unfold trans_stmt. destruct (strip t); reflexivity.
  - (* expr *) destruct s; reflexivity.
  - (* attr *) destruct v as [|v0 v].
    + destruct (truthy_guard g); reflexivity.
    + set (w := v0 :: v) in *. destruct (truthy_guard g).
      * cbn [flat_map item_calls at0 map stmt_calls snd app]. rewrite flat_map_app, optimize_calls. cbn [flat_map item_calls at0 map stmt_calls snd app]. rewrite flat_map_app, H.
        cbn [flat_map item_calls at0 map stmt_calls snd app]. rewrite !app_nil_r. reflexivity.
      * cbn [flat_map item_calls at0 map stmt_calls snd app]. rewrite flat_map_app, H.
        cbn [flat_map item_calls at0 map stmt_calls snd app]. rewrite !app_nil_r. reflexivity.
  - (* attrs *) destruct (truthy_guard g); reflexivity.
  - (* python *) cbn [flat_map item_calls]. rewrite no_calls; [reflexivity|]. intros g0 m0 I1. apply in_map_iff in I1 as (kv & E & _). discriminate.
Qed.
Theorem template_calls : forall t, gettext_calls (generate_python t) = messages t.
Proof.
  intros t. unfold generate_python. rewrite generate_calls. unfold template_iter, messages, body_iter. rewrite flat_map_app. cbn [flat_map item_calls].
  rewrite flat_map_app, body_calls by (apply Forall_forall; intros n _; apply iter_calls).
  cbn [flat_map item_calls at0 map stmt_calls snd app]. rewrite !app_nil_r.
  match goal with |- ?x ++ _ = _ => assert (E : x = []) end.
  { induction (mod_py t) as [|[ln ls] l IH]; [reflexivity|]. cbn [map flat_map item_calls fst snd]. rewrite IH, no_calls; [reflexivity|].
    intros g m I1. apply in_map_iff in I1 as (kv & E & _). discriminate. }
  now rewrite E.
Qed.
