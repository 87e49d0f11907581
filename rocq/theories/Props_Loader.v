(** * Loaders: C46 to C51 and C58 *)

From Coq Require Import Ascii String List NArith ZArith Bool Lia Permutation Arith.
From Verif Require Import PyStr PyStrLemmas M_Loader S_Loader P_Loader P_Loader2.
Import ListNotations.
Open Scope list_scope.

(** A small world for the examples: two versions of one file; the change happens at the
    [k]-th access. *)
Definition dir : str := L "/t".
Definition page : str := L "a.xml".
Definition world (k n : nat) (f : str) : option (Z * str) :=
  if seqb f (L "/t/a.xml")
  then if Nat.ltb n k then Some (1%Z, L "<old/>") else Some (2%Z, L "<new/>")
  else None.
Definition compiles (k : kind) (args : kwargs) (contents : str) : option string := None.
Definition cfg_reload (b : bool) : config := Config [dir] b None (OBool false) ONone [].

(** ** C46 *)

Theorem C46_same_object : forall fs compile cfg name kw s t s',
  c_reload cfg = false ->
  file_import fs compile cfg name kw s = (Ok t, s') ->
  forall history kw', fst (file_import fs compile cfg name kw' (after (file_import fs compile cfg) history s')) = Ok t.
Proof.
  intros fs compile cfg name kw s t s' Hr H history kw'.
  pose proof (import_modules _ _ _ _ (filename_in_frame _ _) (filename_in_cand _ _) _ _ _ _ _ _ H) as (_ & _ & L0).
  pose proof (keep_after fs compile _ _ (filename_in_frame _ _) (filename_in_cand fs (c_path cfg)) cfg history s' t name Hr L0) as K.
  destruct (cached_no_reload fs compile _ (filename_in_frame fs (c_path cfg)) cfg name kw' _ t Hr K) as [E|(e & _ & E)].
  - exact E.
  - destruct (filename_in_ok fs (c_path cfg) name (after (file_import fs compile cfg) history s')) as [r Er].
    change (import_with fs compile cfg (filename_in fs (c_path cfg))) with (file_import fs compile cfg) in E.
    rewrite Er in E. discriminate.
Qed.
Print Assumptions C46_same_object.

(** The package loader looks the file up even when it does not reload: it returns the same
    object, unless that look-up fails. *)
Lemma package_frame : forall listing resource name s r s', package_locate listing resource name s = (r, s') ->
  modules s' = modules s /\ timestamps s' = timestamps s /\ clock s <= clock s'.
Proof. intros. unfold package_locate in H. injection H as <- <-. cbn. auto. Qed.

Theorem C46_package_partial : forall fs compile listing resource mode name kw s t s',
  package_import fs compile listing resource false mode name kw s = (Ok t, s') ->
  forall history kw',
    let s'' := after (package_import fs compile listing resource false mode) history s' in
    fst (package_import fs compile listing resource false mode name kw' s'') = Ok t \/
    exists e, fst (package_import fs compile listing resource false mode name kw' s'') = Raise e /\
              package_filename (listing (clock s'')) name = Raise e.
Proof.
  intros fs compile listing resource mode name kw s t s' H history kw' s''.
  pose proof (import_modules _ _ _ (fun _ _ => True) (package_frame _ _) (fun _ _ _ _ _ => I) _ _ _ _ _ _ H) as (_ & _ & L0).
  pose proof (keep_after fs compile _ (fun _ _ => True) (package_frame listing resource) (fun _ _ _ _ _ => I)
     (package_config false mode) history s' t name eq_refl L0) as K.
  destruct (cached_no_reload fs compile _ (package_frame listing resource) (package_config false mode) name kw' _ t eq_refl K) as [E|(e & E1 & E2)].
  - left. exact E.
  - right. exists e. split; [exact E1|]. unfold package_locate in E2. cbn [fst] in E2.
    assert (E3 : rmap (fun pf => Some (resource (fst pf) (snd pf))) (package_filename (listing (clock s'')) name) = Raise e)
      by exact E2.
    destruct (package_filename (listing (clock s'')) name) as [x|x]; unfold rmap in E3; [discriminate E3|]. congruence.
Qed.
Print Assumptions C46_package_partial.

(** With the package loader, a cached template becomes unavailable when its file is removed,
    even without reload. *)
Theorem C46_package_refuted : exists fs listing resource name t s' e,
  package_import fs compiles listing resource false None name [] (new_loader 0) = (Ok t, s') /\
  fst (package_import fs compiles listing resource false None name [] s') = Raise e.
Proof.
  exists (world 0), (fun n _ => if Nat.ltb n 2 then [L "a.xml"] else []), (fun _ f => L "/t/" ++ f), (L "pkg.a").
  do 3 eexists. split; vm_compute; reflexivity.
Qed.
Print Assumptions C46_package_refuted.

Example C46_example :
  let imp := file_import (world 3) compiles (cfg_reload false) in
  let (r, s') := imp page [] (new_loader 0) in
  exists t, r = Ok t /\ t_contents t = L "<new/>" /\
    fst (imp page [] (after imp [(page, []); (L "other.xml", [])] s')) = Ok t.
Proof. vm_compute. eexists. repeat split. Qed.

(** ** C47 *)

Theorem C47_never_stale : forall fs compile cfg n history name kw t s',
  c_reload cfg = true ->
  mtimes_tell fs (candidate (c_path cfg) name) ->
  let s := after (file_import fs compile cfg) history (new_loader n) in
  file_import fs compile cfg name kw s = (Ok t, s') ->
  exists fn k m, candidate (c_path cfg) name fn /\ clock s <= k < clock s' /\
    fs k fn = Some (m, t_contents t).
Proof.
  intros fs compile cfg n history name kw t s' Hr Tr s H.
  eapply fresh; try eassumption.
  - apply filename_in_frame.
  - apply filename_in_cand.
  - apply Inv_after; [apply filename_in_frame | apply filename_in_cand | apply Inv_new].
Qed.
Print Assumptions C47_never_stale.

(** The same of the package loader; the files a name may stand for are those of its package. *)
Theorem C47_package_never_stale : forall fs compile listing resource mode n history name kw t s',
  let files fn := exists i package file, package_filename (listing i) name = Ok (package, file) /\ fn = resource package file in
  mtimes_tell fs files ->
  let s := after (package_import fs compile listing resource true mode) history (new_loader n) in
  package_import fs compile listing resource true mode name kw s = (Ok t, s') ->
  exists fn k m, files fn /\ clock s <= k < clock s' /\ fs k fn = Some (m, t_contents t).
Proof.
  intros fs compile listing resource mode n history name kw t s' files Tr s H.
  assert (Cand : forall name s fn s', package_locate listing resource name s = (Ok (Some fn), s') ->
    exists i package file, package_filename (listing i) name = Ok (package, file) /\ fn = resource package file).
  { clear. intros name s fn s' H. unfold package_locate in H.
    destruct (package_filename (listing (clock s)) name) as [[p f]|e] eqn:E; cbn [rmap fst snd] in H; [|congruence].
    exists (clock s), p, f. split; [exact E | congruence]. }
  apply (fresh fs compile (package_locate listing resource) (fun name fn => exists i package file, package_filename (listing i) name = Ok (package, file) /\ fn = resource package file)
    (package_frame listing resource) Cand (package_config true mode) name kw s t s' eq_refl); [|exact Tr|exact H].
  apply Inv_after; [apply package_frame|exact Cand|apply Inv_new].
Qed.
Print Assumptions C47_package_never_stale.
Example C47_package_example :
  let imp := package_import (world 3) compiles (fun _ _ => [L "a.xml"]) (fun _ f => L "/t/" ++ f) true None in
  exists t s', imp (L "pkg.a") [] (after imp [(L "pkg.a", [])] (new_loader 0)) = (Ok t, s') /\ t_contents t = L "<new/>".
Proof. vm_compute. do 2 eexists. split; reflexivity. Qed.

(** What an import returns when no file changes during it, in full. *)
Theorem C47_quiet : forall fs compile cfg now name kw s r,
  quiet_from fs (clock s) now -> found_in now name (c_path cfg) r ->
  exists id, fst (file_import fs compile cfg name kw s) =
  match lookup name (modules s), c_reload cfg, r with
  | Some t, false, _ => Ok t
  | Some t, true, None => Raise "TypeError"
  | Some t, true, Some fn =>
      match now fn with
      | Some (m, c) =>
          if (m <=? match lookup name (timestamps s) with Some z => z | None => 0 end)%Z
          then Ok t else built compile cfg fn kw c id
      | None => Raise "FileNotFoundError"
      end
  | None, _, None => Raise "OSError"
  | None, _, Some fn =>
      match now fn with
      | Some (_, c) => built compile cfg fn kw c id
      | None => Raise "FileNotFoundError"
      end
  end.
Proof. exact import_quiet. Qed.
Print Assumptions C47_quiet.

(** Files that do not change are not compiled again. *)
Theorem C47_not_recompiled : forall fs compile cfg now n h0 name kw t s' fn,
  let s := after (file_import fs compile cfg) h0 (new_loader n) in
  quiet_from fs (clock s) now -> found_in now name (c_path cfg) (Some fn) ->
  file_import fs compile cfg name kw s = (Ok t, s') ->
  forall history kw', fst (file_import fs compile cfg name kw' (after (file_import fs compile cfg) history s')) = Ok t.
Proof.
  intros fs compile cfg now n h0 name kw t s' fn s Q F H history kw'.
  destruct (found_exists _ _ _ _ F) as (m & c & N).
  assert (I : Inv fs (candidate (c_path cfg)) s).
  { apply Inv_after; [apply filename_in_frame | apply filename_in_cand | apply Inv_new]. }
  pose proof (import_modules _ _ _ _ (filename_in_frame _ _) (filename_in_cand _ _) _ _ _ _ _ _ H) as (C & _ & L0).
  destruct (c_reload cfg) eqn:Hr.
  2:{ eapply C46_same_object; eauto. }
  (* the timestamp after the import is at least the mtime of the file *)
  assert (T : exists ts, lookup name (timestamps s') = Some ts /\ (m <= ts)%Z).
  { destruct (import_quiet fs compile cfg now name kw s (Some fn) Q F) as [id E]. rewrite H, N, Hr in E. cbn [fst] in E.
    pose proof H as H0. unfold file_import, import_with, bind at 1 in H0.
    destruct (filename_in fs (c_path cfg) name s) as [x s1] eqn:El.
    pose proof (filename_in_quiet _ _ _ _ _ _ Q F) as Ex. rewrite El in Ex. cbn in Ex. subst x.
    apply filename_in_frame in El as (M1 & T1 & C1).
    assert (LD : forall s2 t s3, clock s <= clock s2 -> lookup name (modules s2) = None ->
      base_import (load fs compile cfg (filename_in fs (c_path cfg)) name kw) name s2 = (Ok t, s3) ->
      lookup name (timestamps s3) = Some m).
    { intros s2 t2 s3 C2 N2 B. unfold base_import in B. rewrite N2 in B.
      apply bind_inv in B as [(e & _ & B)|(t3 & s4 & B & B1)]; [discriminate|].
      rewrite load_eq in B. unfold bind in B.
      destruct (filename_in fs (c_path cfg) name s2) as [x s5] eqn:El.
      pose proof (filename_in_quiet _ _ _ _ _ _ (quiet_le _ _ _ _ C2 Q) F) as Ex. rewrite El in Ex. cbn in Ex. subst x.
      apply filename_in_frame in El as (M5 & T5 & C5).
      unfold stat in B. rewrite Q in B by lia. rewrite N in B.
      apply construct_inv in B as (_ & Tb & _ & _). cbn [timestamps set_timestamp] in Tb.
      injection B1 as _ <-. cbn [timestamps set_module]. rewrite Tb. apply lookup_set_eq. }
    unfold bind at 1, expire in H0. rewrite Hr, M1 in H0.
    destruct (lookup name (modules s)) as [t0|] eqn:E0.
    - unfold stat in H0. rewrite Q in H0 by lia. rewrite N in H0. cbn [timestamps tick] in H0. rewrite T1 in H0.
      destruct (I name t0 E0) as (_ & _ & _ & mt & _ & _ & _ & _ & _ & _ & Ts & _). rewrite Ts in H0.
      destruct (Z.ltb_spec mt m).
      + exists m. split; [|lia]. eapply LD; [| |exact H0]; [cbn; lia|]. cbn [modules del_module tick].
        now rewrite lookup_remove_eq.
      + unfold base_import in H0. cbn [modules tick] in H0. rewrite M1, E0 in H0. injection H0 as <- <-.
        cbn [timestamps tick]. rewrite T1. eauto.
    - exists m. split; [|lia]. eapply LD; [| |exact H0]; [lia|]. congruence. }
  destruct T as (ts & Ts & Le).
  assert (Q' : quiet_from fs (clock s') now) by (eapply quiet_le; eauto).
  assert (X : exists fn m c, found_in now name (c_path cfg) (Some fn) /\ now fn = Some (m, c) /\ (m <= ts)%Z) by eauto 7.
  destruct (quiet_keep fs compile cfg now name t ts history s' Q' L0 Ts X) as (Q2 & L2 & T2).
  destruct (import_quiet fs compile cfg now name kw' _ (Some fn) Q2 F) as [id E].
  rewrite E, L2, T2, N, Hr. destruct (Z.leb_spec m ts); [reflexivity | lia].
Qed.
Print Assumptions C47_not_recompiled.

(** The hypothesis on mtimes is needed when several directories may hold the file: a file
    that appears in an earlier directory, but is older than the one loaded, is ignored. *)
Theorem C47_refuted : exists fs cfg name t s',
  c_reload cfg = true /\
  file_import fs compiles cfg name [] (new_loader 0) = (Ok t, s') /\
  fst (file_import fs compiles cfg name [] s') = Ok t /\
  (forall k, clock s' <= k -> exists m c, fs k (path_join (L "/first") name) = Some (m, c) /\ c <> t_contents t) /\
  c_path cfg = [L "/first"; L "/second"].
Proof.
  exists (fun n f => if seqb f (L "/second/a.xml") then Some (5%Z, L "<second/>")
                     else if seqb f (L "/first/a.xml") && Nat.leb 6 n then Some (3%Z, L "<first/>") else None),
         (Config [L "/first"; L "/second"] true None (OBool false) ONone []), page.
  do 2 eexists. split; [reflexivity|]. split; [vm_compute; reflexivity|].
  split; [vm_compute; reflexivity|]. split; [|reflexivity].
  intros k Hk. assert (E : Nat.leb 6 k = true). { apply Nat.leb_le. exact Hk. }
  exists 3%Z, (L "<first/>"). rewrite E. split; [reflexivity | discriminate].
Qed.
Print Assumptions C47_refuted.

Lemma world_tells : forall k name, mtimes_tell (world k) (candidate [dir] name).
Proof.
  intros k name i j f g m c m' c' Hij (b & [<-|[]] & ->) (b' & [<-|[]] & ->) F G. unfold world in F, G.
  destruct (seqb (path_join dir name) (L "/t/a.xml")); [|discriminate].
  destruct (Nat.ltb_spec i k), (Nat.ltb_spec j k); injection F as <- <-; injection G as <- <-;
    split; try lia; try congruence.
Qed.

(** The file is replaced between the stat and the read of the first import: access 3
    (accesses 0 and 1 are existence checks, 2 the stat). *)
Example C47_example :
  mtimes_tell (world 3) (candidate [dir] page) /\
  let imp := file_import (world 3) compiles (cfg_reload true) in
  exists t s' t2 s2, imp page [] (new_loader 0) = (Ok t, s') /\ t_contents t = L "<new/>" /\
    lookup page (timestamps s') = Some 1%Z /\
    imp page [] s' = (Ok t2, s2) /\ t_id t2 <> t_id t /\ lookup page (timestamps s2) = Some 2%Z /\
    fst (imp page [] s2) = Ok t2.
Proof.
  split; [apply world_tells|]. do 4 eexists. vm_compute. repeat split. discriminate.
Qed.

Example C47_quiet_example :
  quiet_from (world 0) 5 (world 0 0) /\ found_in (world 0 0) page [L "/none"; dir] (Some (L "/t/a.xml")).
Proof.
  split.
  - intros i f _. unfold world. reflexivity.
  - apply found_later; [reflexivity|]. apply (found_here (world 0 0) page dir []). discriminate.
Qed.

(** ** C48 *)

Theorem C48_no_trace : forall fs compile cfg name kw s e s',
  file_import fs compile cfg name kw s = (Raise e, s') ->
  lookup name (modules s) = None ->
  lookup name (modules s') = None /\
  (forall other, other <> name -> lookup other (modules s') = lookup other (modules s)).
Proof.
  intros fs compile cfg name kw s e s' H N.
  pose proof (import_modules _ _ _ _ (filename_in_frame _ _) (filename_in_cand _ _) _ _ _ _ _ _ H) as (_ & O & R).
  split; [|intros o No; apply O; assumption].
  destruct R as [R|(t & R & _)]; [exact R | congruence].
Qed.
Print Assumptions C48_no_trace.

(** When the reload of a cached template fails, the old one is dropped, unless its file could
    not be found any more: then it is kept. *)
Theorem C48_reload_failure : forall fs compile cfg name kw s e s',
  file_import fs compile cfg name kw s = (Raise e, s') ->
  (lookup name (modules s') = None \/
   exists t, lookup name (modules s) = Some t /\ modules s' = modules s /\ timestamps s' = timestamps s /\
     c_reload cfg = true /\
     ((e = "TypeError"%string /\ forall i b, nth_error (c_path cfg) i = Some b -> fs (clock s + i) (path_join b name) = None) \/
      (e = "FileNotFoundError"%string /\ exists fn k, candidate (c_path cfg) name fn /\ clock s <= k < clock s' /\ fs k fn = None))) /\
  (forall other, other <> name -> lookup other (modules s') = lookup other (modules s)).
Proof.
  intros fs compile cfg name kw s e s' H.
  pose proof (import_modules _ _ _ _ (filename_in_frame _ _) (filename_in_cand _ _) _ _ _ _ _ _ H) as (_ & O & R).
  split; [|intros o No; apply O; assumption].
  destruct R as [R|(t & R & M & T)]; [auto|]. 
  destruct (lookup name (modules s')) as [t'|] eqn:E'; [|auto]. right.
  exists t. repeat split; auto; unfold file_import, import_with in H;
    apply bind_inv in H as [(e0 & H & _)|(o & s1 & H & H1)];
    try (destruct (filename_in_ok fs (c_path cfg) name s) as [r Er]; rewrite H in Er; discriminate);
    pose proof H as H0; apply filename_in_frame in H0 as (M1 & T1 & C1).
  - destruct (c_reload cfg) eqn:Hr; [reflexivity|]. cbn in H1. unfold base_import in H1.
    rewrite M1, R in H1. discriminate.
  - apply bind_inv in H1 as [(e0 & H1 & Q)|([] & s2 & H1 & H2)].
    + injection Q as <-. unfold expire in H1. rewrite M1, R in H1.
      destruct (c_reload cfg); [|discriminate].
      destruct o as [fn|].
      * right. unfold stat in H1.
        destruct (fs (clock s1) fn) as [[m c]|] eqn:F; [discriminate|]. injection H1 as <- <-.
        split; [reflexivity|]. exists fn, (clock s1). cbn. repeat split; auto.
        eapply filename_in_cand; eauto.
      * left. injection H1 as <- <-. split; [reflexivity|].
        apply filename_in_spec in H as (_ & _ & [(pre & base & post & _ & Q & _)|(_ & _ & A)]); [discriminate | exact A].
    + exfalso. apply expire_inv in H1 as (T2 & C2 & [[M2 _]|(_ & _ & M2 & _)]).
      * unfold base_import in H2. rewrite M2, M1, R in H2. discriminate.
      * unfold base_import in H2. rewrite M2, lookup_remove_eq in H2.
        apply bind_inv in H2 as [(e1 & H2 & _)|(t2 & s3 & _ & H2)]; [|discriminate].
        apply (load_inv fs compile _ _ (filename_in_frame _ _) (filename_in_cand _ _)) in H2 as (M3 & _).
        rewrite M3, M2, lookup_remove_eq in E'. discriminate.
Qed.
Print Assumptions C48_reload_failure.

(** A template that is not cached is loaded as by a new loader: earlier failures do not
    matter. *)
Theorem C48_retry : forall fs compile cfg name kw s,
  lookup name (modules s) = None ->
  fst (file_import fs compile cfg name kw s) = fst (file_import fs compile cfg name kw (new_loader (clock s))).
Proof.
  intros fs compile cfg name kw s N.
  apply (locate_load_frame fs compile _ (filename_in_frame fs (c_path cfg))); auto.
  apply filename_in_clock.
Qed.
Print Assumptions C48_retry.

(** A template whose file is removed stays cached; if the file comes back with an old mtime,
    the old template is served. *)
Theorem C48_refuted : exists fs t s1 e s2,
  let imp := file_import fs compiles (cfg_reload true) in
  imp page [] (new_loader 0) = (Ok t, s1) /\ imp page [] s1 = (Raise e, s2) /\
  fst (imp page [] s2) = Ok t /\ exists m c, fs (clock s2) (L "/t/a.xml") = Some (m, c) /\ c <> t_contents t.
Proof.
  exists (fun n f => if seqb f (L "/t/a.xml")
                     then if Nat.ltb n 4 then Some (5%Z, L "<old/>") else if Nat.ltb n 5 then None
                          else Some (5%Z, L "<new/>") else None).
  do 4 eexists. cbv zeta. split; [vm_compute; reflexivity|]. split; [vm_compute; reflexivity|].
  split; [vm_compute; reflexivity|]. do 2 eexists. split; [vm_compute; reflexivity | discriminate].
Qed.
Print Assumptions C48_refuted.

Example C48_example :
  let bad (k : kind) (args : kwargs) (c : str) := if seqb c (L "<old/>") then Some "SyntaxError"%string else None in
  let imp := file_import (world 6) bad (cfg_reload true) in
  exists s' t, imp page [] (new_loader 0) = (Raise "SyntaxError", s') /\ lookup page (modules s') = None /\
    fst (imp page [] s') = Ok t /\ t_contents t = L "<new/>".
Proof. do 2 eexists. vm_compute. repeat split. Qed.

(** ** C49 *)

(** The file found is the one of the first directory in which the loader finds it, each
    directory being looked at once. *)
Theorem C49_first_directory : forall fs path name s r s', filename_in fs path name s = (r, s') ->
  (exists pre base post, path = pre ++ base :: post /\ r = Ok (Some (path_join base name)) /\
     clock s' = S (clock s + length pre) /\ fs (clock s + length pre) (path_join base name) <> None /\
     (forall i b, nth_error pre i = Some b -> fs (clock s + i) (path_join b name) = None)) \/
  (r = Ok None /\ clock s' = clock s + length path /\
    forall i b, nth_error path i = Some b -> fs (clock s + i) (path_join b name) = None).
Proof. intros fs path name s r s' H. now apply filename_in_spec in H as (_ & _ & D). Qed.
Print Assumptions C49_first_directory.

(** Where a name is looked for. *)
Theorem C49_join : forall base name,
  (forall n, name = c_slash :: n -> path_join base name = name) /\
  (forall b c, ~ prefixb [c_slash] name = true -> base = b ++ [c] -> c <> c_slash ->
     path_join base name = base ++ [c_slash] ++ name) /\
  (forall b, ~ prefixb [c_slash] name = true -> base = b ++ [c_slash] -> path_join base name = base ++ name) /\
  path_join [] name = name.
Proof.
  intros base name. unfold path_join. repeat split.
  - intros n ->. cbn. reflexivity.
  - intros b c Hn -> Hc. apply N.eqb_neq in Hc. destruct name as [|x name].
    + rewrite rev_app_distr. cbn [rev app]. now rewrite Hc.
    + cbn [prefixb] in Hn. destruct (N.eqb_spec x c_slash) as [->|Nx]; [now destruct Hn|].
      rewrite rev_app_distr. cbn [rev app]. now rewrite Hc.
  - intros b Hn ->. destruct name as [|x name].
    + rewrite rev_app_distr. cbn [rev app]. now rewrite app_nil_r.
    + cbn [prefixb] in Hn. destruct (N.eqb_spec x c_slash) as [->|Nx]; [now destruct Hn|].
      rewrite rev_app_distr. cbn [rev app]. reflexivity.
  - destruct name as [|x name]; [reflexivity|]. cbn. now destruct (N.eqb x c_slash).
Qed.
Print Assumptions C49_join.

(** The options of an import come before those of the loader; [encoding] of the import is for reading the file, and
    not an option of the template. *)
Lemma kw_set_in : forall k v d k' v', NoDup (map fst d) -> (In (k', v') (kw_set k v d) <-> k' = k /\ v' = v \/ k' <> k /\ In (k', v') d).
Proof.
  intros k v. induction d as [|[k0 v0] d IH]; intros k' v' N; cbn [kw_set].
  - cbn [In]. split; [intros [E|[]]; left; split; congruence|]. intros [[-> ->]|[_ []]]. now left.
  - cbn [map fst] in N. apply NoDup_cons_iff in N as [N1 N2]. destruct (seqb_spec k k0) as [->|Ne].
    + cbn [In]. split.
      * intros [E|H]; [left; split; congruence|]. right. split; [|now right]. intros ->. apply N1. apply in_map_iff. now exists (k0, v').
      * intros [[-> ->]|[Ne [E|H]]]; [now left|congruence|now right].
    + cbn [In]. rewrite IH by exact N2. split.
      * intros [E|[H|[H1 H2]]]; [right; split; [congruence|now left]|now left|right; split; [exact H1|now right]].
      * intros [H|[H1 [E|H2]]]; [right; now left|now left|right; right; now split].
Qed.
Lemma kw_set_keys : forall k v d, NoDup (map fst d) -> NoDup (map fst (kw_set k v d)).
Proof.
  intros k v. induction d as [|[k0 v0] d IH]; intros N; cbn [kw_set]; [repeat constructor; intros []|]. pose proof N as N0. cbn [map fst] in N. apply NoDup_cons_iff in N as [N1 N2].
  destruct (seqb_spec k k0) as [->|Ne]; [exact N0|]. cbn [map fst]. constructor; [|now apply IH]. intros H. apply in_map_iff in H as ([k' v'] & E & H). cbn [fst] in E. subst k'.
  apply kw_set_in in H as [[E _]|[_ H]]; [congruence| |exact N2]. apply N1. apply in_map_iff. now exists (k0, v').
Qed.
Theorem C49_options : forall cfg kw k v, NoDup (map fst (c_template_options cfg)) -> NoDup (map fst kw) ->
  (In (k, v) (options_of cfg kw) <->
   k <> L "encoding" /\ In (k, v) kw \/ (k = L "encoding" \/ ~ In k (map fst kw)) /\ In (k, v) (c_template_options cfg)).
Proof.
  intros cfg kw k v N1 N2. unfold options_of, kw_update.
  assert (G : forall e d, NoDup (map fst d) -> NoDup (map fst e) ->
    (In (k, v) (fold_left (fun d kv => kw_set (fst kv) (snd kv) d) e d) <-> In (k, v) e \/ ~ In k (map fst e) /\ In (k, v) d)).
  { induction e as [|[k0 v0] e IH]; intros d Nd Ne; cbn [fold_left fst snd]; [cbn; tauto|]. cbn [map fst] in Ne. apply NoDup_cons_iff in Ne as [Ne1 Ne2].
    rewrite IH; [|now apply kw_set_keys|exact Ne2]. rewrite kw_set_in by exact Nd. cbn [In map fst].
    assert (Z : forall w, In (k, w) e -> In k (map fst e)) by (intros w H; apply in_map_iff; now exists (k, w)).
    split.
    - intros [H|[H [[-> ->]|[H1 H2]]]]; [tauto|left; now left|right; split; [intros [E|E]; [congruence|tauto]|exact H2]].
    - intros [[E|H]|[H1 H2]]; [right; assert (k = k0 /\ v = v0) as [-> ->] by (split; congruence); tauto|tauto|right]. split; [tauto|]. right. split; [|exact H2]. intros ->. tauto. }
  assert (F : forall x, In x (map fst (kw_del (L "encoding") kw)) <-> x <> L "encoding" /\ In x (map fst kw)).
  { intros x. unfold kw_del. rewrite !in_map_iff. split.
    - intros ([k' v'] & E & H). cbn [fst] in E. subst k'. apply filter_In in H as [H H']. cbn [fst] in H'. apply negb_true_iff in H'. split; [|now exists (x, v')].
      intros ->. now rewrite seqb_refl in H'.
    - intros (Ne & [k' v'] & E & H). cbn [fst] in E. subst k'. exists (x, v'). split; [reflexivity|]. apply filter_In. split; [exact H|]. cbn [fst]. apply negb_true_iff.
      destruct (seqb_spec (L "encoding") x); [congruence|reflexivity]. }
  assert (Nf : NoDup (map fst (kw_del (L "encoding") kw))).
  { unfold kw_del. clear - N2. induction kw as [|[k0 v0] kw IH]; [constructor|]. cbn [map fst] in N2. apply NoDup_cons_iff in N2 as [H1 H2]. cbn [filter fst].
    destruct (negb _); [|now apply IH]. cbn [map fst]. constructor; [|now apply IH]. intros H. apply H1. apply in_map_iff in H as ([k' v'] & E & H). cbn [fst] in E. subst k'.
    apply filter_In in H as [H _]. apply in_map_iff. now exists (k0, v'). }
  rewrite G by assumption. rewrite F. unfold kw_del. rewrite filter_In. cbn [fst]. rewrite negb_true_iff.
  destruct (seqb_spec (L "encoding") k) as [<-|Ne]; [|assert (k <> L "encoding") by congruence; tauto].
  split; [intros [[_ E]|[_ H]]; [discriminate|right; tauto]|intros [[H _]|[_ H]]; [now destruct H|right; tauto]].
Qed.
Print Assumptions C49_options.
Example C49_options_example :
  let cfg := Config [dir] true None (OBool false) ONone [(L "encoding", ONone); (L "strip_text", OBool true)] in
  let kw := [(L "encoding", OBool true); (L "strip_text", OBool false); (L "is_fragment", OBool true)] in
  NoDup (map fst (c_template_options cfg)) /\ NoDup (map fst kw) /\
  options_of cfg kw = [(L "encoding", ONone); (L "strip_text", OBool false); (L "is_fragment", OBool true)].
Proof.
  assert (D : forall l, (fix go (l : list str) : bool := match l with [] => true | x :: l' => negb (smem x l') && go l' end) l = true -> NoDup l).
  { induction l as [|x l IH]; intros H; [constructor|]. apply andb_true_iff in H as [H1 H2]. apply negb_true_iff in H1. constructor; [|now apply IH]. now apply smem_notIn. }
  cbn zeta. split; [apply D; reflexivity|]. split; [apply D; reflexivity|]. reflexivity.
Qed.

(** The template built from the file: its kind and arguments. *)
Theorem C49_kind : forall fs compile cfg name kw s t s',
  lookup name (modules s) = None ->
  file_import fs compile cfg name kw s = (Ok t, s') ->
  exists fn given, candidate (c_path cfg) name fn /\ choice cfg fn = Some (t_kind t, given) /\
    accepted (t_kind t) given (options_of cfg kw) /\ t_args t = given ++ options_of cfg kw.
Proof.
  intros fs compile cfg name kw s t s' N H.
  apply (import_ok fs compile _ _ (filename_in_frame _ _) (filename_in_cand _ _)) in H
    as [(Q & _)|(fn & i & j & m & c & m' & given & Hc & _ & _ & _ & _ & _ & _ & _ & Ch & B)]; [congruence|].
  apply bind_kwargs_ok in B as [A B]. exists fn, given. auto.
Qed.
Print Assumptions C49_kind.

(** So it is with the package loader, which takes no options of its own: text templates
    are not escaped by themselves, and the elements that become blocks are not chosen. *)
Theorem C49_package_kind : forall fs compile listing resource reload mode name kw s t s',
  lookup name (modules s) = None ->
  package_import fs compile listing resource reload mode name kw s = (Ok t, s') ->
  let cfg := Config [] reload mode (OBool false) ONone [] in
  exists n package file given, package_filename (listing n) name = Ok (package, file) /\
    choice cfg (resource package file) = Some (t_kind t, given) /\
    accepted (t_kind t) given (options_of cfg kw) /\ t_args t = given ++ options_of cfg kw.
Proof.
  intros fs compile listing resource reload mode name kw s t s' N H cfg.
  assert (Cand : forall name s fn s', package_locate listing resource name s = (Ok (Some fn), s') ->
    exists n package file, package_filename (listing n) name = Ok (package, file) /\ fn = resource package file).
  { clear. intros name s fn s' H. unfold package_locate in H.
    destruct (package_filename (listing (clock s)) name) as [[p f]|e] eqn:E; cbn [rmap fst snd] in H; [|congruence].
    exists (clock s), p, f. split; [exact E | congruence]. }
  apply (import_ok fs compile _ (fun name fn => exists n package file,
      package_filename (listing n) name = Ok (package, file) /\ fn = resource package file)
      (package_frame listing resource) Cand) in H
    as [(Q & _)|(fn & i & j & m & c & m' & given & Hc & _ & _ & _ & _ & _ & _ & _ & Ch & B)]; [congruence|].
  apply bind_kwargs_ok in B as [A B]. destruct Hc as (n & p & f & P & ->). exists n, p, f, given. auto.
Qed.
Print Assumptions C49_package_kind.

Theorem C49_package : forall listing package module,
  let name := package ++ [c_dot] ++ module in
  module <> [] -> ~ In c_dot module -> ~ In c_slash module ->
  (In name (listing package) -> package_filename listing name = Ok (package, name)) /\
  (~ In name (listing package) ->
     (exists fn, package_filename listing name = Ok (package, fn) /\ picks (listing package) module fn) \/
     (package_filename listing name = Raise "OSError" /\
      forall e, In e extensions -> ~ In (module ++ e) (listing package))).
Proof. exact package_filename_spec. Qed.
Print Assumptions C49_package.

Theorem C49_listing_order : forall listing listing' package module,
  let name := package ++ [c_dot] ++ module in
  module <> [] -> ~ In c_dot module -> ~ In c_slash module ->
  Permutation (listing package) (listing' package) ->
  package_filename listing name = package_filename listing' name.
Proof.
  intros l l' package module name M1 M2 M3 P.
  assert (IFF : forall x, In x (l package) <-> In x (l' package)).
  { intros x. split; apply Permutation_in; [|symmetry]; exact P. }
  destruct (package_filename_spec l package module M1 M2 M3) as [A B].
  destruct (package_filename_spec l' package module M1 M2 M3) as [A' B']. fold name in A, B, A', B'.
  destruct (in_dec str_eq_dec name (l package)) as [I|N].
  - rewrite A by assumption. rewrite A'; [reflexivity|]. now apply IFF.
  - assert (N' : ~ In name (l' package)) by (intros X; apply N, IFF, X).
    destruct (B N) as [(fn & E & Pk)|[E F]], (B' N') as [(fn' & E' & Pk')|[E' F']]; rewrite E, E'.
    + f_equal. f_equal. apply (picks_unique (l package) module); [exact Pk|].
      destruct Pk' as (b & e & r & X1 & X2 & X3 & X4). exists b, e, r. repeat split; auto.
      * now apply IFF.
      * intros y Hy Z. apply (X4 y Hy), IFF, Z.
    + exfalso. destruct Pk as (b & e & r & X1 & -> & X3 & X4). apply (F' e).
      * rewrite X1. apply in_or_app. right. now left.
      * now apply IFF.
    + exfalso. destruct Pk' as (b & e & r & X1 & -> & X3 & X4). apply (F e).
      * rewrite X1. apply in_or_app. right. now left.
      * now apply IFF.
    + reflexivity.
Qed.
Print Assumptions C49_listing_order.

(** A name without a dot is not looked up at all. *)
Theorem C49_package_no_dot : forall listing name, ~ In c_dot name -> package_filename listing name = Raise "ValueError".
Proof. intros listing name H. unfold package_filename. now rewrite rsplit_dot_None. Qed.
Print Assumptions C49_package_no_dot.

Example C49_example :
  package_filename (fun _ => map L ["b.xml"; "a.txt"; "a.html5"; "a.html"; "a.py"]%string) (L "my.pkg.a")
  = Ok (L "my.pkg", L "a.html").
Proof. reflexivity. Qed.

Example C49_package_kind_example :
  exists t s', package_import (fun _ _ => Some (5%Z, L "hi")) (fun _ _ _ => None) (fun _ _ => [L "a.txt"])
    (fun p f => p ++ [c_slash] ++ f) true None (L "pkg.a") [] (new_loader 0) = (Ok t, s') /\
    t_kind t = Text /\ t_args t = [(L "autoescape", OBool false); (L "source", ONone); (L "filename", OStr (L "pkg/a.txt"))].
Proof. do 2 eexists. vm_compute. repeat split. Qed.

(** ** C50 *)

(** A template loaded by an include for the first time is a fragment. *)
Theorem C50_first_include : forall fs compile cfg name s t s',
  lookup name (modules s) = None ->
  file_import fs compile cfg name include_kwargs s = (Ok t, s') ->
  t_kind t = Xml /\ kw_get (L "is_fragment") (t_args t) = Some (OBool true).
Proof.
  intros fs compile cfg name s t s' N H.
  destruct (C49_kind _ _ _ _ _ _ _ _ N H) as (fn & given & _ & Ch & A & ->).
  pose proof (options_include cfg) as O. split.
  - destruct (t_kind t); [|reflexivity]. exfalso.
    assert (B : bind_kwargs Text given (options_of cfg include_kwargs) = Ok (given ++ options_of cfg include_kwargs))
      by (apply bind_kwargs_ok; auto).
    rewrite (no_text_fragment _ _ _ O) in B. discriminate.
  - rewrite kw_get_app. apply choice_given in Ch. apply kw_get_None in Ch. now rewrite Ch.
Qed.
Print Assumptions C50_first_include.

(** But the option is ignored when the template is in the cache already: what is included
    depends on what was loaded first. *)
Theorem C50_refuted :
  (exists t s1, file_import (world 0) compiles (cfg_reload true) page [] (new_loader 0) = (Ok t, s1) /\
    kw_get (L "is_fragment") (t_args t) = None /\
    fst (file_import (world 0) compiles (cfg_reload true) page include_kwargs s1) = Ok t) /\
  (exists t s1, file_import (world 0) compiles (cfg_reload true) page include_kwargs (new_loader 0) = (Ok t, s1) /\
    kw_get (L "is_fragment") (t_args t) = Some (OBool true) /\
    fst (file_import (world 0) compiles (cfg_reload true) page [] s1) = Ok t).
Proof. split; do 2 eexists; vm_compute; repeat split. Qed.
Print Assumptions C50_refuted.

(** Exactly: without reload, the options of the first load that succeeds decide for all later loads of the name, whatever
    these ask for and whatever else is loaded in between. *)
Theorem C50_first_decides : forall fs compile cfg name kw s t s',
  c_reload cfg = false -> lookup name (modules s) = None -> NoDup (map fst (c_template_options cfg)) -> NoDup (map fst kw) ->
  file_import fs compile cfg name kw s = (Ok t, s') ->
  (forall v, In (L "is_fragment", v) (t_args t) <->
     In (L "is_fragment", v) kw \/ ~ In (L "is_fragment") (map fst kw) /\ In (L "is_fragment", v) (c_template_options cfg)) /\
  forall history kw', fst (file_import fs compile cfg name kw' (after (file_import fs compile cfg) history s')) = Ok t.
Proof.
  intros fs compile cfg name kw s t s' R N D1 D2 H. split; [|exact (C46_same_object _ _ _ _ _ _ _ _ R H)].
  destruct (C49_kind _ _ _ _ _ _ _ _ N H) as (fn & given & _ & Ch & _ & ->). intros v. rewrite in_app_iff, (C49_options cfg kw _ _ D1 D2).
  apply choice_given in Ch. split.
  - intros [I1|[[_ I1]|[[E|I1] I2]]]; [|now left|discriminate E|now right].
    exfalso. apply Ch, in_map_iff. now exists (L "is_fragment", v).
  - intros [I1|[I1 I2]]; right; [left|right]; split; auto. discriminate.
Qed.
Print Assumptions C50_first_decides.
Example C50_example :
  let imp := file_import (world 0) compiles (cfg_reload false) in
  lookup page (modules (new_loader 0)) = None /\ NoDup (map fst include_kwargs) /\
  exists t s', imp page include_kwargs (new_loader 0) = (Ok t, s') /\ In (L "is_fragment", OBool true) (t_args t) /\
    fst (imp page [] (after imp [(L "b.xml", []); (page, [(L "is_fragment", OBool false)])] s')) = Ok t.
Proof.
  cbn zeta. split; [reflexivity|]. split; [constructor; [intros []|constructor]|]. do 2 eexists. split; [vm_compute; reflexivity|]. split; [|vm_compute; reflexivity].
  cbn. tauto.
Qed.

(** ** C51 *)

(** Including a text template through a file loader always fails, unless the template
    is cached. *)
Theorem C51_refuted : forall fs compile cfg name s r s',
  lookup name (modules s) = None ->
  (forall fn, candidate (c_path cfg) name fn ->
     c_force_mode cfg = Some (L "text") \/
     ((c_force_mode cfg = None \/ c_force_mode cfg = Some []) /\ snd (splitext fn) = L ".txt")) ->
  file_import fs compile cfg name include_kwargs s = (r, s') ->
  exists e, r = Raise e.
Proof.
  intros fs compile cfg name s r s' N X H. destruct r as [t|e]; [|eauto]. exfalso.
  destruct (C50_first_include _ _ _ _ _ _ _ N H) as [K _].
  destruct (C49_kind _ _ _ _ _ _ _ _ N H) as (fn & given & C & Ch & _).
  destruct (choice_text cfg fn (X fn C)) as [g E]. congruence.
Qed.
Print Assumptions C51_refuted.

(** The error is a TypeError, when the files do not change. *)
Theorem C51_type_error_refuted : forall fs compile cfg now name s fn,
  lookup name (modules s) = None ->
  quiet_from fs (clock s) now -> found_in now name (c_path cfg) (Some fn) ->
  (c_force_mode cfg = Some (L "text") \/
     ((c_force_mode cfg = None \/ c_force_mode cfg = Some []) /\ snd (splitext fn) = L ".txt")) ->
  fst (file_import fs compile cfg name include_kwargs s) = Raise "TypeError".
Proof.
  intros fs compile cfg now name s fn N Q F X.
  destruct (import_quiet fs compile cfg now name include_kwargs s (Some fn) Q F) as [id E].
  rewrite E, N. destruct (found_exists _ _ _ _ F) as (m & c & ->). unfold built.
  destruct (choice_text cfg fn X) as [g ->]. now rewrite (no_text_fragment _ _ _ (options_include cfg)).
Qed.
Print Assumptions C51_type_error_refuted.

(** When a text template was loaded before, it can be included. *)
Theorem C51_cached_partial : forall fs compile cfg name kw s t s',
  c_reload cfg = false ->
  file_import fs compile cfg name kw s = (Ok t, s') ->
  fst (file_import fs compile cfg name include_kwargs s') = Ok t.
Proof. intros. exact (C46_same_object _ _ _ _ _ _ _ _ H H0 [] include_kwargs). Qed.
Print Assumptions C51_cached_partial.

Example C51_example :
  let fs := fun (n : nat) f => if seqb f (L "/t/b.txt") then Some (1%Z, L "hello") else None in
  fst (file_import fs compiles (cfg_reload true) (L "b.txt") include_kwargs (new_loader 0)) = Raise "TypeError" /\
  exists t, fst (file_import fs compiles (cfg_reload true) (L "b.txt") [] (new_loader 0)) = Ok t /\ t_kind t = Text.
Proof. split; [reflexivity|]. eexists. vm_compute. repeat split. Qed.

(** ** C58: the Pyramid loader *)

(** With auto-reload, every import compiles the file as it is now, if its mtime is
    positive. *)
Theorem C58_always_current : forall fs compile mode abspath n history name kw t s',
  (forall k m c, fs k (abspath name) = Some (m, c) -> (0 < m)%Z) ->
  let s := after (pyramid_import fs compile true mode abspath) history (new_loader n) in
  pyramid_import fs compile true mode abspath name kw s = (Ok t, s') ->
  exists k m, clock s <= k < clock s' /\ fs k (abspath name) = Some (m, t_contents t) /\ t_id t = clock s'.
Proof.
  intros fs compile mode abspath n history name kw t s' Pos s H.
  apply pyramid_inv in H as (_ & _ & _ & R). destruct (R t eq_refl) as (_ & [(_ & _ & D)|(j & m & J)]).
  - exfalso. destruct (D eq_refl) as (m & c & F & Le). specialize (Pos _ _ _ F).
    unfold s in Le. rewrite pyramid_timestamps in Le. cbn in Le. lia.
  - exists j, m. intuition.
Qed.
Print Assumptions C58_always_current.

(** So the cache is never used: two imports never return the same object, even if no file
    changes. *)
Theorem C58_no_cache_refuted : forall fs compile mode abspath n history name kw1 kw2 t1 t2 s1 s2,
  (forall k m c, fs k (abspath name) = Some (m, c) -> (0 < m)%Z) ->
  let s := after (pyramid_import fs compile true mode abspath) history (new_loader n) in
  pyramid_import fs compile true mode abspath name kw1 s = (Ok t1, s1) ->
  pyramid_import fs compile true mode abspath name kw2 s1 = (Ok t2, s2) ->
  t_id t1 <> t_id t2.
Proof.
  intros fs compile mode abspath n history name kw1 kw2 t1 t2 s1 s2 Pos s H1 H2.
  destruct (C58_always_current fs compile mode abspath n history name kw1 t1 s1 Pos H1) as (k1 & m1 & K1 & _ & I1).
  pose proof (C58_always_current fs compile mode abspath n (history ++ [(name, kw1)]) name kw2 t2 s2 Pos) as X.
  cbv zeta in X. rewrite after_app in X.
  assert (E : after (pyramid_import fs compile true mode abspath) [(name, kw1)] s = s1).
  { cbn [after fold_left fst snd]. now rewrite H1. }
  unfold s in E. rewrite E in X. destruct (X H2) as (k2 & m2 & K2 & _ & I2). lia.
Qed.
Print Assumptions C58_no_cache_refuted.

(** Without auto-reload, a template once loaded is returned for ever. *)
Theorem C58_same_object : forall fs compile mode abspath name kw s t s',
  pyramid_import fs compile false mode abspath name kw s = (Ok t, s') ->
  forall history kw',
    fst (pyramid_import fs compile false mode abspath name kw'
           (after (pyramid_import fs compile false mode abspath) history s')) = Ok t.
Proof.
  intros fs compile mode abspath name kw s t s' H history kw'.
  apply pyramid_inv in H as (_ & _ & _ & R). destruct (R t eq_refl) as (L0 & _). clear R.
  assert (K : forall h s, lookup (abspath name) (modules s) = Some t ->
    lookup (abspath name) (modules (after (pyramid_import fs compile false mode abspath) h s)) = Some t).
  { intros h. induction h as [|[n k] h IH]; intros s0 L1; [exact L1|]. cbn [after fold_left fst snd]. apply IH.
    destruct (pyramid_import fs compile false mode abspath n k s0) as [r s1] eqn:E. cbn [snd].
    pose proof E as E0. apply pyramid_inv in E as (_ & _ & O & _).
    destruct (str_eq_dec (abspath name) (abspath n)) as [Q|Q]; [|now rewrite O].
    unfold pyramid_import, bind, expire, base_import in E0. rewrite <- Q, L1 in E0. injection E0 as <- <-. exact L1. }
  unfold pyramid_import at 1. unfold bind, expire, base_import. now rewrite (K history s' L0).
Qed.
Print Assumptions C58_same_object.

Example C58_example :
  (forall k m c, world 2 k (L "/t/a.xml") = Some (m, c) -> (0 < m)%Z) /\
  exists t s', pyramid_import (world 2) compiles true (OStr (L "html5")) (fun n => L "/t/" ++ n) page []
    (new_loader 2) = (Ok t, s') /\ t_contents t = L "<new/>".
Proof.
  split.
  - intros k m c. unfold world. rewrite seqb_refl. destruct (Nat.ltb k 2); intros H;
      [assert (m = 1%Z) by congruence | assert (m = 2%Z) by congruence]; lia.
  - do 2 eexists. vm_compute. repeat split.
Qed.
