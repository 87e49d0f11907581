(** * Proofs about file, package and Pyramid loaders *)

From Coq Require Import Ascii String List NArith ZArith Bool Lia Permutation Arith.
From Verif Require Import PyStr PyStrLemmas M_Loader S_Loader P_Loader.
Import ListNotations.
Open Scope list_scope.

(** ** Search path *)

Lemma filename_in_spec : forall fs name path s r s', filename_in fs path name s = (r, s') ->
  modules s' = modules s /\ timestamps s' = timestamps s /\
  ((exists pre base post, path = pre ++ base :: post /\ r = Ok (Some (path_join base name)) /\
     clock s' = S (clock s + length pre) /\ fs (clock s + length pre) (path_join base name) <> None /\
     (forall i b, nth_error pre i = Some b -> fs (clock s + i) (path_join b name) = None)) \/
   (r = Ok None /\ clock s' = clock s + length path /\
    forall i b, nth_error path i = Some b -> fs (clock s + i) (path_join b name) = None)).
Proof.
  intros fs name path. induction path as [|b path IH]; intros s r s' H.
  - injection H as <- <-. repeat split; auto. right. repeat split; auto.
    intros [|i] b; discriminate.
  - cbn [filename_in] in H. unfold bind, exists_file in H.
    destruct (fs (clock s) (path_join b name)) as [x|] eqn:E.
    + injection H as <- <-. repeat split; auto. left. exists [], b, path. cbn.
      rewrite Nat.add_0_r, E. repeat split; auto; [discriminate|]. intros [|i] b'; discriminate.
    + apply IH in H as (M & T & D). repeat split; [exact M | exact T|].
      cbn [tick clock] in D. destruct D as [(pre & base & post & -> & -> & C & F & A)|(-> & C & A)].
      * left. exists (b :: pre), base, post. cbn [length].
        replace (clock s + S (length pre)) with (S (clock s) + length pre) by lia.
        repeat split; auto. intros [|i] b' Hn; cbn in Hn.
        -- injection Hn as <-. now rewrite Nat.add_0_r.
        -- replace (clock s + S i) with (S (clock s) + i) by lia. auto.
      * right. cbn [length]. repeat split; [lia|]. intros [|i] b' Hn; cbn in Hn.
        -- injection Hn as <-. now rewrite Nat.add_0_r.
        -- replace (clock s + S i) with (S (clock s) + i) by lia. auto.
Qed.

Lemma filename_in_frame : forall fs path name s r s', filename_in fs path name s = (r, s') ->
  modules s' = modules s /\ timestamps s' = timestamps s /\ clock s <= clock s'.
Proof.
  intros fs path name s r s' H.
  apply filename_in_spec in H as (M & T & [(pre & base & post & -> & -> & C & _)|(_ & C & _)]);
    repeat split; auto; lia.
Qed.

Lemma filename_in_cand : forall fs path name s fn s', filename_in fs path name s = (Ok (Some fn), s') ->
  candidate path name fn.
Proof.
  intros fs path name s fn s' H.
  apply filename_in_spec in H as (M & T & [(pre & base & post & -> & E & _)|(E & _)]); [|discriminate].
  injection E as ->. exists base. split; [|reflexivity]. apply in_or_app. right. now left.
Qed.

Lemma filename_in_clock : forall fs path n a b, clock a = clock b ->
  fst (filename_in fs path n a) = fst (filename_in fs path n b) /\
  clock (snd (filename_in fs path n a)) = clock (snd (filename_in fs path n b)).
Proof.
  intros fs path n. induction path as [|base path IH]; intros a b H; [auto|].
  cbn [filename_in]. unfold bind, exists_file. rewrite H.
  destruct (fs (clock b) (path_join base n)).
  - cbn. auto.
  - apply IH. cbn. now rewrite H.
Qed.

Lemma filename_in_ok : forall fs path n s, exists r, fst (filename_in fs path n s) = Ok r.
Proof.
  intros. destruct (filename_in fs path n s) as [r s'] eqn:E.
  apply filename_in_spec in E as (_ & _ & [(pre & base & post & _ & -> & _)|(-> & _)]); cbn; eauto.
Qed.

Lemma filename_in_quiet : forall fs now path name s r, quiet_from fs (clock s) now ->
  found_in now name path r -> fst (filename_in fs path name s) = Ok r.
Proof.
  intros fs now path name s r Q F. revert s Q. induction F as [|base path E|base path r E F IH]; intros s Q.
  - reflexivity.
  - cbn [filename_in]. unfold bind, exists_file. rewrite Q by lia.
    destruct (now (path_join base name)); [reflexivity | contradiction].
  - cbn [filename_in]. unfold bind, exists_file. rewrite Q by lia. rewrite E.
    apply IH. intros i f Hi. apply Q. cbn in Hi. lia.
Qed.

(** ** Imports from a quiet file system *)

Lemma quiet_le : forall fs n m now, n <= m -> quiet_from fs n now -> quiet_from fs m now.
Proof. intros fs n m now H Q i f Hi. apply Q. lia. Qed.

Lemma found_exists : forall now name path fn, found_in now name path (Some fn) -> exists m c, now fn = Some (m, c).
Proof.
  intros now name path fn F. remember (Some fn) as r eqn:E. induction F as [|base path N|base path r N F IH].
  - discriminate.
  - injection E as <-. destruct (now (path_join base name)) as [[m c]|]; [eauto | contradiction].
  - auto.
Qed.

Lemma load_quiet : forall fs compile cfg now name kw s r,
  quiet_from fs (clock s) now -> found_in now name (c_path cfg) r ->
  exists id, fst (load fs compile cfg (filename_in fs (c_path cfg)) name kw s) =
  match r with
  | None => Raise "OSError"
  | Some fn => match now fn with
               | Some (_, c) => built compile cfg fn kw c id
               | None => Raise "FileNotFoundError"
               end
  end.
Proof.
  intros fs compile cfg now name kw s r Q F. rewrite load_eq. unfold bind.
  pose proof (filename_in_quiet _ _ _ _ _ _ Q F) as E.
  destruct (filename_in fs (c_path cfg) name s) as [x s1] eqn:El. cbn in E. subst x.
  apply filename_in_frame in El as (M & T & C). destruct r as [fn|]; [|exists 0; reflexivity].
  destruct (found_exists _ _ _ _ F) as (m & c & N). rewrite N.
  unfold stat. rewrite Q by lia. rewrite N. unfold construct, built.
  destruct (choice cfg fn) as [[k g]|]; [|exists 0; reflexivity].
  unfold build, bind, lift. destruct (bind_kwargs k g (options_of cfg kw)) as [args|e]; cbn [rbind];
    [|exists 0; reflexivity].
  unfold read_file. cbn [clock set_timestamp tick]. rewrite Q by lia. rewrite N.
  destruct (compile k args c); [exists 0; reflexivity|]. eexists. reflexivity.
Qed.

Lemma import_quiet : forall fs compile cfg now name kw s r,
  quiet_from fs (clock s) now -> found_in now name (c_path cfg) r ->
  exists id, fst (file_import fs compile cfg name kw s) =
  match lookup name (modules s), c_reload cfg, r with
  | Some t, false, _ => Ok t
  | Some t, true, None => Raise "TypeError"
  | Some t, true, Some fn =>
      match now fn with
      | Some (m, c) =>
          if (m <=? match lookup name (timestamps s) with Some z => z | None => 0 end)%Z
          then Ok t else built compile cfg fn kw c id
      | None => Raise "FileNotFoundError"
      end
  | None, _, None => Raise "OSError"
  | None, _, Some fn =>
      match now fn with
      | Some (_, c) => built compile cfg fn kw c id
      | None => Raise "FileNotFoundError"
      end
  end.
Proof.
  intros fs compile cfg now name kw s r Q F. unfold file_import, import_with, bind at 1.
  pose proof (filename_in_quiet _ _ _ _ _ _ Q F) as E.
  destruct (filename_in fs (c_path cfg) name s) as [x s1] eqn:El. cbn in E. subst x.
  apply filename_in_frame in El as (M & T & C).
  assert (Q1 : quiet_from fs (clock s1) now) by (eapply quiet_le; eauto).
  unfold bind at 1, expire, base_import. rewrite M.
  assert (K : forall s2, clock s1 <= clock s2 ->
    exists id, fst (bind (load fs compile cfg (filename_in fs (c_path cfg)) name kw)
      (fun t s' => (Ok t, set_module name t s')) s2) =
    match r with
    | None => Raise "OSError"
    | Some fn => match now fn with
                 | Some (_, c) => built compile cfg fn kw c id
                 | None => Raise "FileNotFoundError"
                 end
    end).
  { intros s2 Hc. destruct (load_quiet fs compile cfg now name kw s2 r) as [id I]; [eapply quiet_le; eauto | auto |].
    exists id. rewrite <- I. unfold bind. destruct (load _ _ _ _ _ _ s2) as [[t|e] s3]; reflexivity. }
  destruct (lookup name (modules s)) as [t|] eqn:Et; destruct (c_reload cfg) eqn:Er.
  - destruct r as [fn|]; [|exists 0; reflexivity].
    destruct (found_exists _ _ _ _ F) as (m & c & N). rewrite N. unfold stat. rewrite Q1 by lia. rewrite N.
    cbn [timestamps tick]. rewrite T.
    destruct (Z.ltb_spec (match lookup name (timestamps s) with Some z => z | None => 0%Z end) m) as [H|H].
    + cbn [modules del_module]. rewrite lookup_remove_eq.
      destruct (K (del_module name (tick s1)) ltac:(cbn; lia)) as [id I]. exists id.
      rewrite I, N. destruct (Z.leb_spec m (match lookup name (timestamps s) with Some z => z | None => 0%Z end)); [lia|reflexivity].
    + exists 0. cbn [modules tick]. rewrite M, Et.
      destruct (Z.leb_spec m (match lookup name (timestamps s) with Some z => z | None => 0%Z end)); [reflexivity|lia].
  - exists 0. rewrite M, Et. reflexivity.
  - rewrite M, Et. destruct (K s1 (le_n _)) as [id I]. exists id. rewrite I. now destruct r.
  - rewrite M, Et. destruct (K s1 (le_n _)) as [id I]. exists id. rewrite I. now destruct r.
Qed.

(** A file system that stays quiet: the template stays the same. *)
Lemma quiet_keep : forall fs compile cfg now name t ts,
  forall h s, quiet_from fs (clock s) now -> 
  lookup name (modules s) = Some t -> lookup name (timestamps s) = Some ts ->
  (exists fn m c, found_in now name (c_path cfg) (Some fn) /\ now fn = Some (m, c) /\ (m <= ts)%Z) ->
  let s' := after (file_import fs compile cfg) h s in
  quiet_from fs (clock s') now /\ lookup name (modules s') = Some t /\ lookup name (timestamps s') = Some ts.
Proof.
  intros fs compile cfg now name t ts h. induction h as [|[n kw] h IH]; intros s Q L0 Lt X; [auto|].
  cbn [after fold_left fst snd]. apply IH; [| | |exact X];
    destruct (file_import fs compile cfg n kw s) as [r s'] eqn:E; cbn [snd];
    pose proof (import_modules _ _ _ (candidate (c_path cfg)) (filename_in_frame _ _) (filename_in_cand _ _) _ _ _ _ _ _ E) as (C & O & R).
  - eapply quiet_le; eauto.
  - destruct (str_eq_dec name n) as [<-|N]; [|now rewrite (proj1 (O name N))].
    destruct X as (fn & m & c & Fo & N & Le).
    destruct (import_quiet fs compile cfg now name kw s (Some fn) Q Fo) as [id I].
    rewrite E, L0, N, Lt in I. cbn [fst] in I.
    destruct (Z.leb_spec m ts); [|lia]. assert (r = Ok t) by (destruct (c_reload cfg); exact I). clear I. subst r.
    exact R.
  - destruct (str_eq_dec name n) as [<-|N]; [|now rewrite (proj2 (O name N))].
    destruct X as (fn & m & c & Fo & N & Le).
    destruct (import_quiet fs compile cfg now name kw s (Some fn) Q Fo) as [id I].
    rewrite E, L0, N, Lt in I. cbn [fst] in I.
    destruct (Z.leb_spec m ts); [|lia]. assert (r = Ok t) by (destruct (c_reload cfg); exact I). clear I. subst r.
    (* the timestamp: a template is not built again *)
    revert E. unfold file_import, import_with, bind at 1.
    destruct (filename_in fs (c_path cfg) name s) as [x s1] eqn:El.
    pose proof (filename_in_quiet _ _ _ _ _ _ Q Fo) as Ex. rewrite El in Ex. cbn in Ex. subst x.
    apply filename_in_frame in El as (M & T & C1).
    unfold bind at 1, expire. rewrite M, L0. destruct (c_reload cfg).
    + unfold stat. rewrite Q by lia. rewrite N. cbn [timestamps tick]. rewrite T, Lt.
      destruct (Z.ltb_spec ts m); [lia|]. unfold base_import. cbn [modules tick]. rewrite M, L0.
      intros [= <-]. cbn. now rewrite T.
    + unfold base_import. rewrite M, L0. intros [= <-]. now rewrite T.
Qed.

(** ** splitext *)

Lemma rev_takewhile_split : forall p (s : str), s = rev (dropwhile p (rev s)) ++ rev (takewhile p (rev s)).
Proof. intros. rewrite <- rev_app_distr, takewhile_dropwhile, rev_involutive. reflexivity. Qed.

(** The part after the last character c, when there is one. *)
Lemma last_split : forall c (s : str), In c s -> exists a,
  s = a ++ [c] ++ rev (takewhile (fun x => negb (N.eqb x c)) (rev s)).
Proof.
  intros c s H. set (p := fun x => negb (N.eqb x c)). pose proof (rev_takewhile_split p s) as E.
  destruct (dropwhile p (rev s)) as [|d t] eqn:D.
  - exfalso. cbn in E. apply in_rev in H.
    pose proof (takewhile_dropwhile p (rev s)) as E2. rewrite D, app_nil_r in E2.
    pose proof (takewhile_all p (rev s)) as A. rewrite E2 in A. rewrite forallb_forall in A.
    specialize (A c H). unfold p in A. now rewrite N.eqb_refl in A.
  - pose proof (dropwhile_head _ _ _ _ D) as Hd. unfold p in Hd. apply negb_false_iff, N.eqb_eq in Hd. subst d.
    exists (rev t). cbn [rev] in E. rewrite <- app_assoc in E. exact E.
Qed.

Lemma splitext_concat : forall p r e, splitext p = (r, e) -> p = r ++ e.
Proof.
  intros p r e H. unfold splitext in H.
  destruct (cmem c_dot (basename p) && _) eqn:E.
  - apply andb_true_iff in E as [E1 _]. apply cmem_In in E1.
    destruct (last_split _ _ E1) as [a Ha].
    set (x := rev (takewhile (fun c => negb (N.eqb c c_dot)) (rev (basename p)))) in *.
    pose proof (rev_takewhile_split (fun c => negb (N.eqb c c_slash)) p) as Ep. fold (basename p) in Ep.
    set (d := rev (dropwhile (fun c => negb (N.eqb c c_slash)) (rev p))) in *.
    rewrite Ha in Ep.
    injection H as <- <-.
    assert (El : length p = length d + (length a + 1 + length x)).
    { rewrite Ep at 1. rewrite !app_length. cbn. lia. }
    replace (length p - length x - 1) with (length (d ++ a)) by (rewrite app_length; lia).
    rewrite Ep at 2. rewrite Ep at 1. rewrite app_assoc, firstn_app, firstn_all, Nat.sub_diag. cbn. 
    rewrite app_nil_r. reflexivity.
  - injection H as <- <-. now rewrite app_nil_r.
Qed.

Lemma basename_no_slash : forall p, ~ In c_slash p -> basename p = p.
Proof.
  intros p H. unfold basename.
  replace (takewhile (fun c => negb (N.eqb c c_slash)) (rev p)) with (rev p); [apply rev_involutive|].
  rewrite <- (app_nil_r (rev p)) at 2. rewrite takewhile_app_all; [cbn; now rewrite app_nil_r|].
  apply forallb_forall. intros x Hx. apply in_rev in Hx. apply negb_true_iff, N.eqb_neq. intros ->. contradiction.
Qed.

Lemma splitext_module : forall m e, m <> [] -> ~ In c_dot m -> ~ In c_slash m ->
  ~ In c_dot e -> ~ In c_slash e -> splitext (m ++ [c_dot] ++ e) = (m, [c_dot] ++ e).
Proof.
  intros m e Hm D1 S1 D2 S2. unfold splitext.
  rewrite basename_no_slash.
  2:{ rewrite !in_app_iff. cbn. intros [H|[[H|[]]|H]]; [contradiction | discriminate | contradiction]. }
  assert (Et : takewhile (fun c => negb (N.eqb c c_dot)) (rev (m ++ [c_dot] ++ e)) = rev e).
  { rewrite !rev_app_distr. cbn [rev app]. rewrite <- app_assoc. rewrite takewhile_app_all.
    - cbn. now rewrite app_nil_r.
    - apply forallb_forall. intros x Hx. apply in_rev in Hx. apply negb_true_iff, N.eqb_neq. intros ->. contradiction. }
  rewrite Et, rev_involutive.
  assert (El : length (m ++ [c_dot] ++ e) - length e - 1 = length m) by (rewrite !app_length; cbn; lia).
  rewrite El, firstn_app, firstn_all, Nat.sub_diag. cbn [firstn]. rewrite app_nil_r.
  assert (E1 : cmem c_dot (m ++ [c_dot] ++ e) = true).
  { apply cmem_In. rewrite !in_app_iff. cbn. auto. }
  assert (E2 : existsb (fun c => negb (N.eqb c c_dot)) m = true).
  { destruct m as [|x m]; [contradiction|]. cbn. apply orb_true_iff. left.
    apply negb_true_iff, N.eqb_neq. intros ->. apply D1. now left. }
  now rewrite E1, E2.
Qed.

Lemma extension_shape : forall e, In e extensions -> exists x, e = [c_dot] ++ x /\ ~ In c_dot x /\ ~ In c_slash x.
Proof.
  intros e H. unfold extensions in H. cbn [In] in H.
  destruct H as [<-|[<-|[<-|[<-|[]]]]]; eexists; split; try reflexivity;
    split; apply not_true_iff_false || idtac; cbn; intuition discriminate.
Qed.

(** ** Package loader *)

Lemma rsplit_dot_spec : forall package module, ~ In c_dot module ->
  rsplit_dot (package ++ [c_dot] ++ module) = Some (package, module).
Proof.
  intros p m H. unfold rsplit_dot.
  assert (E1 : cmem c_dot (p ++ [c_dot] ++ m) = true).
  { apply cmem_In. rewrite !in_app_iff. cbn. auto. }
  rewrite E1.
  assert (Et : takewhile (fun c => negb (N.eqb c c_dot)) (rev (p ++ [c_dot] ++ m)) = rev m).
  { rewrite !rev_app_distr. cbn [rev app]. rewrite <- app_assoc. rewrite takewhile_app_all.
    - cbn. now rewrite app_nil_r.
    - apply forallb_forall. intros x Hx. apply in_rev in Hx. apply negb_true_iff, N.eqb_neq. intros ->. contradiction. }
  rewrite Et, rev_involutive.
  assert (El : length (p ++ [c_dot] ++ m) - length m - 1 = length p) by (rewrite !app_length; cbn; lia).
  rewrite El, firstn_app, firstn_all, Nat.sub_diag. cbn [firstn]. now rewrite app_nil_r.
Qed.

Lemma rsplit_dot_None : forall name, ~ In c_dot name -> rsplit_dot name = None.
Proof.
  intros name H. unfold rsplit_dot. destruct (cmem c_dot name) eqn:E; [|reflexivity].
  apply cmem_In in E. contradiction.
Qed.

Lemma scan_early : forall name module listing found, In name listing ->
  scan_listing name module listing found = inl name.
Proof.
  intros name module listing. induction listing as [|fn l IH]; intros found H; [contradiction|].
  cbn [scan_listing]. destruct (seqb_spec fn name) as [->|N]; [reflexivity|].
  destruct H as [H|H]; [congruence|]. destruct (splitext fn) as [root ext].
  destruct (seqb root module); apply IH; assumption.
Qed.

Lemma scan_found : forall name module, module <> [] -> ~ In c_dot module -> ~ In c_slash module ->
  forall listing found, ~ In name listing ->
  exists found', scan_listing name module listing found = inr found' /\
    forall ext, In ext extensions ->
      lookup ext found' = if smem (module ++ ext) listing then Some (module ++ ext) else lookup ext found.
Proof.
  intros name module M1 M2 M3 listing. induction listing as [|fn l IH]; intros found H.
  - exists found. split; [reflexivity|]. reflexivity.
  - cbn [scan_listing]. destruct (seqb_spec fn name) as [->|N]; [exfalso; apply H; now left|].
    assert (Hl : ~ In name l) by (intros X; apply H; now right).
    destruct (splitext fn) as [root ext] eqn:E. pose proof (splitext_concat _ _ _ E) as Ec.
    destruct (seqb_spec root module) as [->|Nr].
    + destruct (IH (set ext fn found) Hl) as (f' & Es & Hf). exists f'. split; [exact Es|].
      intros ext' He. rewrite (Hf ext' He). unfold smem. cbn [existsb]. fold (smem (module ++ ext') l).
      destruct (smem (module ++ ext') l) eqn:Em.
      * now rewrite orb_true_r.
      * rewrite orb_false_r. destruct (seqb_spec (module ++ ext') fn) as [Ef|Nf].
        -- rewrite <- Ef in Ec. apply app_inv_head in Ec. subst ext'. rewrite lookup_set_eq. congruence.
        -- rewrite lookup_set_neq; [reflexivity|]. intros ->. congruence.
    + destruct (IH found Hl) as (f' & Es & Hf). exists f'. split; [exact Es|].
      intros ext' He. rewrite (Hf ext' He). unfold smem. cbn [existsb]. fold (smem (module ++ ext') l).
      destruct (seqb_spec (module ++ ext') fn) as [Ef|Nf]; [|reflexivity]. exfalso.
      destruct (extension_shape _ He) as (x & -> & D & Sl). rewrite <- Ef in E.
      rewrite splitext_module in E by auto. injection E as <- <-. contradiction.
Qed.

Lemma package_filename_spec : forall listing package module,
  let name := package ++ [c_dot] ++ module in
  module <> [] -> ~ In c_dot module -> ~ In c_slash module ->
  (In name (listing package) -> package_filename listing name = Ok (package, name)) /\
  (~ In name (listing package) ->
     (exists fn, package_filename listing name = Ok (package, fn) /\ picks (listing package) module fn) \/
     (package_filename listing name = Raise "OSError" /\
      forall e, In e extensions -> ~ In (module ++ e) (listing package))).
Proof.
  intros listing package module name M1 M2 M3. unfold package_filename, name.
  rewrite rsplit_dot_spec by assumption. split; intros H.
  - now rewrite scan_early.
  - destruct (scan_found _ module M1 M2 M3 (listing package) [] H) as (f & -> & Hf).
    change [L ".xml"; L ".html"; L ".html5"; L ".txt"] with extensions.
    assert (K : forall before rest, extensions = before ++ rest ->
      (forall e, In e before -> ~ In (module ++ e) (listing package)) ->
      let l := flat_map (fun ext => match lookup ext f with Some fn => [fn] | None => [] end) rest in
      (exists fn l', l = fn :: l' /\ picks (listing package) module fn) \/
      (l = [] /\ forall e, In e extensions -> ~ In (module ++ e) (listing package))).
    { intros before rest. revert before. induction rest as [|e rest IH]; intros before E A.
      - right. split; [reflexivity|]. intros e He. rewrite app_nil_r in E. rewrite E in He. auto.
      - cbn [flat_map]. rewrite (Hf e) by (rewrite E; apply in_or_app; right; now left).
        destruct (smem (module ++ e) (listing package)) eqn:Em.
        + left. eexists. eexists. split; [reflexivity|]. apply smem_In in Em.
          exists before, e, rest. auto.
        + cbn [lookup app]. apply smem_notIn in Em. apply (IH (before ++ [e])).
          * rewrite <- app_assoc. exact E.
          * intros e' He'. apply in_app_or in He' as [He'|[<-|[]]]; auto. }
    destruct (K [] extensions eq_refl) as [(fn & l' & -> & P)|[-> A]]; [intros e []| |].
    + left. exists fn. auto.
    + right. auto.
Qed.

Lemma picks_unique : forall l m fn fn', picks l m fn -> picks l m fn' -> fn = fn'.
Proof.
  intros l m fn fn' (b & e & r & E & -> & I & A) (b' & e' & r' & E' & -> & I' & A').
  rewrite E in E'. clear E. revert b' E' A'. induction b as [|x b IH]; intros [|x' b'] E' A'; cbn in E'.
  - injection E' as -> _. reflexivity.
  - injection E' as -> _. exfalso. apply (A' x'); [now left | assumption].
  - injection E' as <- _. exfalso. apply (A x); [now left | assumption].
  - injection E' as <- E'. apply (IH (fun y Hy => A y (or_intror Hy)) b' E' (fun y Hy => A' y (or_intror Hy))).
Qed.


(** ** Keyword arguments *)

Lemma bind_kwargs_ok : forall k given options args,
  bind_kwargs k given options = Ok args <-> accepted k given options /\ args = given ++ options.
Proof.
  intros k given options args. unfold bind_kwargs, accepted.
  destruct (existsb _ given) eqn:E1.
  - split; [discriminate|]. intros [[A _] _]. apply existsb_exists in E1 as ([x v] & I & S).
    apply smem_In in S. exfalso. apply (A x); [|assumption]. apply in_map_iff. now exists (x, v).
  - destruct (forallb _ (given ++ options)) eqn:E2.
    + split.
      * intros [= <-]. split; [|reflexivity]. split.
        -- intros x I J. apply in_map_iff in I as ([x' v] & <- & I). apply not_true_iff_false in E1. apply E1.
           apply existsb_exists. exists (x', v). split; [assumption|]. now apply smem_In.
        -- intros x I. rewrite <- map_app in I. apply in_map_iff in I as ([x' v] & <- & I).
           rewrite forallb_forall in E2. specialize (E2 _ I). now apply smem_In.
      * intros [_ ->]. reflexivity.
    + split; [discriminate|]. intros [[_ A] _]. exfalso. apply not_true_iff_false in E2. apply E2.
      apply forallb_forall. intros [x v] I. apply smem_In, A. rewrite <- map_app. apply in_map_iff. now exists (x, v).
Qed.

Lemma bind_kwargs_raise : forall k given options, ~ accepted k given options ->
  bind_kwargs k given options = Raise "TypeError".
Proof.
  intros k given options N. destruct (bind_kwargs k given options) as [a|e] eqn:E.
  - apply bind_kwargs_ok in E. tauto.
  - unfold bind_kwargs in E. destruct (existsb _ given); [congruence|]. destruct (forallb _ _); congruence.
Qed.

Lemma kw_get_app : forall k a b, kw_get k (a ++ b) = match kw_get k a with Some v => Some v | None => kw_get k b end.
Proof.
  intros k a b. induction a as [|[k' v] a IH]; [reflexivity|]. cbn. destruct (seqb k k'); auto.
Qed.

Lemma kw_get_set_eq : forall k v d, kw_get k (kw_set k v d) = Some v.
Proof.
  intros k v d. induction d as [|[k' v'] d IH]; cbn; [now rewrite seqb_refl|].
  destruct (seqb_spec k k') as [->|N]; cbn; [now rewrite seqb_refl|].
  destruct (seqb_spec k k'); [contradiction | exact IH].
Qed.

Lemma kw_get_None : forall k d, kw_get k d = None <-> ~ In k (map fst d).
Proof.
  intros k d. induction d as [|[k' v'] d IH]; cbn; [tauto|].
  destruct (seqb_spec k k') as [->|N]; [split; [discriminate | intros H; exfalso; auto]|].
  rewrite IH. split; [intros H [E|I]; [congruence | auto] | auto].
Qed.

Lemma kw_get_In : forall k d v, kw_get k d = Some v -> In k (map fst d).
Proof.
  intros k d v H. destruct (in_dec str_eq_dec k (map fst d)) as [I|N]; [exact I|].
  apply kw_get_None in N. congruence.
Qed.

Lemma options_include : forall cfg, kw_get (L "is_fragment") (options_of cfg include_kwargs) = Some (OBool true).
Proof. intros cfg. unfold options_of, include_kwargs. cbn [kw_del filter fst]. 
  replace (negb (seqb (L "encoding") (L "is_fragment"))) with true by reflexivity.
  cbn [kw_update fold_left fst snd]. apply kw_get_set_eq. Qed.

Lemma choice_given : forall cfg fn k given, choice cfg fn = Some (k, given) -> ~ In (L "is_fragment") (map fst given).
Proof.
  intros cfg fn k given H. unfold choice in H.
  destruct (c_force_mode cfg) as [[|c mode]|];
    repeat match type of H with context [if seqb ?a ?b then _ else _] => destruct (seqb a b) end;
    try discriminate H; assert (G : exists g, given = g) by eauto; destruct G as [g G];
    injection H as _ H; subst given; apply smem_notIn; reflexivity.
Qed.

Lemma choice_text : forall cfg fn, 
  (c_force_mode cfg = Some (L "text") \/
   ((c_force_mode cfg = None \/ c_force_mode cfg = Some []) /\ snd (splitext fn) = L ".txt")) ->
  exists given, choice cfg fn = Some (Text, given).
Proof.
  intros cfg fn [H|[H E]]; unfold choice.
  - rewrite H. cbn. eauto.
  - destruct H as [-> | ->]; rewrite E; cbn; eauto.
Qed.

Lemma no_text_fragment : forall given options v, kw_get (L "is_fragment") options = Some v ->
  bind_kwargs Text given options = Raise "TypeError".
Proof.
  intros given options v H. apply bind_kwargs_raise. intros [_ A]. apply kw_get_In in H.
  specialize (A (L "is_fragment") ltac:(apply in_or_app; auto)).
  apply smem_In in A. discriminate A.
Qed.

(** ** Pyramid *)


Lemma pyramid_inv : forall fs compile auto mode abspath name kw s r s',
  pyramid_import fs compile auto mode abspath name kw s = (r, s') ->
  let n := abspath name in
  timestamps s' = timestamps s /\ clock s <= clock s' /\
  (forall x, x <> n -> lookup x (modules s') = lookup x (modules s)) /\
  (forall t, r = Ok t -> lookup n (modules s') = Some t /\
     ((lookup n (modules s) = Some t /\ modules s' = modules s /\
       (auto = true -> exists m c, fs (clock s) n = Some (m, c) /\
          (m <= match lookup n (timestamps s) with Some z => z | None => 0%Z end)%Z)) \/
      (exists j m, clock s <= j < clock s' /\ fs j n = Some (m, t_contents t) /\ t_id t = clock s' /\
         t_kind t = Xml))).
Proof.
  intros fs compile auto mode abspath name kw s r s' H n. unfold pyramid_import in H. fold n in H.
  apply bind_inv in H as [(e & H & ->)|([] & s1 & H & H1)].
  - apply expire_inv in H as (T & C & [[M _]|(_ & Q & _)]); [|discriminate].
    rewrite M. repeat split; auto. all: discriminate.
  - apply expire_inv in H as (T & C & D). unfold base_import in H1.
    assert (Hx : forall x, x <> n -> lookup x (modules s1) = lookup x (modules s)).
    { intros x Nx. destruct D as [[M _]|(_ & _ & M & _)]; rewrite M; [reflexivity|]. now apply lookup_remove_neq. }
    destruct (lookup n (modules s1)) as [t|] eqn:E.
    + injection H1 as <- <-. repeat split; auto.
      * congruence.
      * assert (t0 = t) by congruence. subst t0. left. destruct D as [[M D]|(_ & _ & M & _)].
        -- rewrite M in E. repeat split; auto. intros Ha.
           destruct (D t eq_refl Ha E) as (f & m & c & old & [= <-] & F & K & -> & Le). eauto.
        -- rewrite M, lookup_remove_eq in E. discriminate.
    + apply bind_inv in H1 as [(e & H1 & ->)|(t & s2 & H1 & H2)].
      * apply build_inv in H1 as (M1 & T1 & C1 & _). repeat split; auto; try congruence; try lia.
        intros x Nx. rewrite M1. auto.
        all: discriminate.
      * apply build_inv in H1 as (M1 & T1 & C1 & R). destruct (R t eq_refl) as (m & F & K & I & Kd & B).
        injection H2 as <- <-. cbn [set_module modules timestamps clock].
        repeat split; auto; try congruence; try lia.
        -- intros x Nx. rewrite lookup_set_neq by auto. rewrite M1. auto.
        -- assert (t0 = t) by congruence. subst t0. apply lookup_set_eq.
        -- assert (t0 = t) by congruence. subst t0. right. exists (clock s1), m. repeat split; auto; lia.
Qed.

Lemma pyramid_timestamps : forall fs compile auto mode abspath h s,
  timestamps (after (pyramid_import fs compile auto mode abspath) h s) = timestamps s.
Proof.
  intros fs compile auto mode abspath h. induction h as [|[n kw] h IH]; intros s; [reflexivity|].
  cbn [after fold_left fst snd]. unfold after in IH. rewrite IH.
  destruct (pyramid_import fs compile auto mode abspath n kw s) as [r s'] eqn:E.
  apply pyramid_inv in E as (T & _). exact T.
Qed.
