(** * C81: variables that a template does not mention have no effect on it *)

From Coq Require Import Ascii String List Arith NArith ZArith Bool Lia.
From Verif Require Import PyStr PyStrLemmas M_Values M_IR S_IR M_Template P_Template M_Run S_Unnamed P_Unnamed Props_Run.
Import ListNotations.
Open Scope list_scope.

(** A template, whatever it extends, imports, includes and calls, is rendered with two contexts that agree on the names [used]: those
    that the generated Python of all these templates mentions, and those that the run time reads.  The result is the same, also
    which exception is raised. *)
Theorem C81_unnamed : forall py (used : str -> Prop) files depth f c c',
  (forall k, In k run_time_names -> used k) -> (forall k, In k asks_by_name -> ~ used k) ->
  mentions_only py used f -> (forall fragment name g, files fragment name = Ok g -> mentions_only py used g) ->
  NoDup (map fst c) -> NoDup (map fst c') -> same_on used c c' ->
  run_file py files depth f c = run_file py files depth f c'.
Proof. intros py used files depth f c c' Rn Ask. apply unnamed; auto. Qed.
Print Assumptions C81_unnamed.

(** More variables, that no template mentions. *)
Theorem C81_extra : forall py (used : str -> Prop) files depth f c extra,
  (forall k, In k run_time_names -> used k) -> (forall k, In k asks_by_name -> ~ used k) ->
  mentions_only py used f -> (forall fragment name g, files fragment name = Ok g -> mentions_only py used g) ->
  NoDup (map fst (extra ++ c)) -> Forall (fun kv => ~ used (fst kv)) extra ->
  run_file py files depth f (extra ++ c) = run_file py files depth f c.
Proof.
  intros py used files depth f c extra Rn Ask M Mf D E. apply (C81_unnamed py used); auto.
  - rewrite map_app in D. revert D. induction (map fst extra) as [|x l IH]; intros D; [exact D|]. cbn [app] in D. inversion D; subst. now apply IH.
  - intros x U. clear D. induction E as [|[k v] extra Hk E IH]; [reflexivity|]. cbn [app get fst] in *. destruct (seqb_spec x k) as [->|_]; [contradiction|exact IH].
Qed.
Print Assumptions C81_extra.

(** Whatever the templates mention, the order of the context makes no difference. *)
Theorem C81_order : forall py files depth f c c', NoDup (map fst c) -> NoDup (map fst c') -> (forall x, get x c = get x c') ->
  run_file py files depth f c = run_file py files depth f c'.
Proof.
  intros py files depth f c c' D D' E. apply (unnamed py (fun _ => True)); try (intros; exact Logic.I); [now right|intros b x _ _; exact Logic.I|intros fragment name g _ b x _ _; exact Logic.I|exact D|exact D'|].
  intros x _. apply E.
Qed.
Print Assumptions C81_order.

(** The page with a layout and an included list of [C29_whole_example]. *)
Definition unames : list str := run_time_names ++ flat_map (fun f : file => flat_map (mentioned demo) (programs (defs (fst (fst f))))) [child; layout; list_page].
Example C81_example :
  (forall k, In k run_time_names -> In k unames) /\ (forall k, In k asks_by_name -> ~ In k unames) /\
  mentions_only demo (fun x => In x unames) child /\ (forall fragment name g, demo_files fragment name = Ok g -> mentions_only demo (fun x => In x unames) g) /\
  same_on (fun x => In x unames) [(L "title", VNone); (L "x", VStr (L "<&"))] [(L "x", VStr (L "<&")); (L "title", VNone); (L "user", VStr (L "me"))] /\
  In (L "x") unames /\ ~ In (L "user") unames /\
  run_file demo demo_files 5 child [(L "x", VStr (L "<&")); (L "user", VStr (L "me"))] =
  Ok (L "<h1>Child of Layout: [<b>1</b><b>2</b>]<li class=""&lt;""/><li class=""&amp;""/></h1><i>&lt;&amp;</i>").
Proof.
  assert (M : forall f, In f [child; layout; list_page] -> mentions_only demo (fun x => In x unames) f).
  { intros f I1 b x I2 I3. unfold unames. apply in_or_app. right. apply in_flat_map. exists f. split; [exact I1|]. apply in_flat_map. eauto. }
  split; [intros k I1; apply in_or_app; now left|]. split.
  { intros k I1 I2. apply smem_In in I2. destruct I1 as [<-|[<-|[]]]; vm_compute in I2; discriminate. }
  split; [apply M; now left|]. split.
  { intros fragment name g. unfold demo_files. destruct (seqb name (L "layout.html")); [intros E; assert (g = layout) as -> by congruence; apply M; right; now left|].
    destruct (seqb name (L "list.html")); [intros E; assert (g = list_page) as -> by congruence; apply M; right; right; now left|discriminate]. }
  split.
  { intros x U. cbn [get]. destruct (seqb_spec x (L "title")) as [->|_]; [reflexivity|]. destruct (seqb x (L "x")); [reflexivity|]. destruct (seqb_spec x (L "user")) as [->|_]; [|reflexivity].
    exfalso. apply smem_In in U. vm_compute in U. discriminate. }
  split; [apply smem_In; vm_compute; reflexivity|]. split; [|vm_compute; reflexivity]. intros U. apply smem_In in U. vm_compute in U. discriminate.
Qed.

(** The functions that are given names when the template runs may see any variable. *)
Definition upage (e : string) : file := page [NDef 1 false (L "__main__()") [NExpr 1 (L e) false]].
Theorem C81_defined_refuted : exists c c',
  ~ In (L "user") (flat_map (mentioned demo) (programs (defs (fst (fst (upage "defined('user')")))))) /\
  ~ In (L "user") (flat_map (mentioned demo) (programs (defs (fst (fst (upage "value_of('user')")))))) /\
  same_on (fun x => x <> L "user") c c' /\
  run_file demo demo_files 5 (upage "defined('user')") c <> run_file demo demo_files 5 (upage "defined('user')") c' /\
  run_file demo demo_files 5 (upage "value_of('user')") c <> run_file demo demo_files 5 (upage "value_of('user')") c'.
Proof.
  exists [], [(L "user", VStr (L "me"))]. split; [intros U; apply smem_In in U; vm_compute in U; discriminate|]. split; [intros U; apply smem_In in U; vm_compute in U; discriminate|].
  split; [|split; vm_compute; discriminate]. intros x Ne. cbn [get]. destruct (seqb_spec x (L "user")); [contradiction|reflexivity].
Qed.
Print Assumptions C81_defined_refuted.
