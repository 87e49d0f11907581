(** * Proofs about loaders *)

From Coq Require Import Ascii String List NArith ZArith Bool Lia Permutation Arith.
From Verif Require Import PyStr PyStrLemmas M_Loader S_Loader.
Import ListNotations.
Open Scope list_scope.

(** ** Dictionaries *)

Lemma lookup_remove_eq : forall A k (d : list (str * A)), lookup k (remove k d) = None.
Proof.
  induction d as [|[k' v] d IH]; [reflexivity|]. cbn [remove].
  destruct (seqb k k') eqn:E; [exact IH|]. cbn [lookup]. now rewrite E.
Qed.

Lemma lookup_remove_neq : forall A k k' (d : list (str * A)), k <> k' ->
  lookup k (remove k' d) = lookup k d.
Proof.
  intros A k k' d N. induction d as [|[k2 v] d IH]; [reflexivity|]. cbn [remove lookup].
  destruct (seqb_spec k' k2) as [->|N2].
  - destruct (seqb_spec k k2); [contradiction | exact IH].
  - cbn [lookup]. destruct (seqb k k2); [reflexivity | exact IH].
Qed.

Lemma lookup_set_eq : forall A k (v : A) d, lookup k (set k v d) = Some v.
Proof. intros. unfold set. cbn [lookup]. now rewrite seqb_refl. Qed.

Lemma lookup_set_neq : forall A k k' (v : A) d, k <> k' -> lookup k (set k' v d) = lookup k d.
Proof.
  intros A k k' v d N. unfold set. cbn [lookup].
  destruct (seqb_spec k k'); [contradiction | now apply lookup_remove_neq].
Qed.

(** ** The monad *)

Lemma bind_inv : forall A B (m : io A) (f : A -> io B) s r s',
  bind m f s = (r, s') ->
  (exists e, m s = (Raise e, s') /\ r = Raise e) \/
  (exists a s1, m s = (Ok a, s1) /\ f a s1 = (r, s')).
Proof.
  intros A B m f s r s' H. unfold bind in H. destruct (m s) as [[a|e] s1].
  - right. eauto.
  - left. injection H as <- <-. eauto.
Qed.

Section Generic.
Variable fs : nat -> str -> option (Z * str).
Variable compile : kind -> kwargs -> str -> option string.
Variable locate : str -> io (option str).
Variable cand : str -> str -> Prop.
Hypothesis locate_frame : forall name s r s', locate name s = (r, s') ->
  modules s' = modules s /\ timestamps s' = timestamps s /\ clock s <= clock s'.
Hypothesis locate_cand : forall name s fn s', locate name s = (Ok (Some fn), s') -> cand name fn.

Lemma stat_inv : forall fn s r s', stat fs fn s = (r, s') ->
  modules s' = modules s /\ timestamps s' = timestamps s /\ clock s <= clock s' /\
  (forall m, r = Ok m -> exists f c, fn = Some f /\ fs (clock s) f = Some (m, c) /\ clock s' = S (clock s)).
Proof.
  intros fn s r s' H. unfold stat in H. destruct fn as [f|].
  - destruct (fs (clock s) f) as [[m c]|] eqn:E; injection H as <- <-; cbn; repeat split; auto.
    + intros m0 [= <-]. eauto.
    + discriminate.
  - injection H as <- <-. repeat split; auto. discriminate.
Qed.

Lemma read_inv : forall fn s r s', read_file fs fn s = (r, s') ->
  modules s' = modules s /\ timestamps s' = timestamps s /\ clock s <= clock s' /\
  (forall c, r = Ok c -> exists m, fs (clock s) fn = Some (m, c) /\ clock s' = S (clock s)).
Proof.
  intros fn s r s' H. unfold read_file in H.
  destruct (fs (clock s) fn) as [[m c]|] eqn:E; injection H as <- <-; cbn; repeat split; auto.
  - intros c0 [= <-]. eauto.
  - discriminate.
Qed.

Lemma build_inv : forall k given options fn s r s', build fs compile k given options fn s = (r, s') ->
  modules s' = modules s /\ timestamps s' = timestamps s /\ clock s <= clock s' /\
  (forall t, r = Ok t -> exists m, fs (clock s) fn = Some (m, t_contents t) /\ clock s' = S (clock s) /\
     t_id t = clock s' /\ t_kind t = k /\ bind_kwargs k given options = Ok (t_args t)).
Proof.
  intros k given options fn s r s' H. unfold build in H.
  apply bind_inv in H as [(e & H & ->)|(args & s1 & H & H1)].
  - unfold lift in H. injection H as _ <-. repeat split; auto; discriminate.
  - unfold lift in H. injection H as B <-.
    apply bind_inv in H1 as [(e & H1 & ->)|(c & s2 & H1 & H2)].
    + apply read_inv in H1 as (-> & -> & ? & _). repeat split; auto; discriminate.
    + apply read_inv in H1 as (M & T & C & R). destruct (R c eq_refl) as (m & F & K).
      destruct (compile k args c) as [e|]; injection H2 as <- <-.
      * repeat split; auto; discriminate.
      * repeat split; auto. intros t [= <-]. exists m. cbn. auto.
Qed.

Definition construct (cfg : config) (fn : str) (kw : kwargs) : io template :=
  match choice cfg fn with
  | Some (k, given) => build fs compile k given (options_of cfg kw) fn
  | None => fail "KeyError"
  end.

Lemma load_eq : forall cfg name kw s,
  load fs compile cfg locate name kw s =
  bind (locate name) (fun o => match o with
    | None => fail "OSError"
    | Some fn => bind (stat fs (Some fn)) (fun m s1 => construct cfg fn kw (set_timestamp name m s1))
    end) s.
Proof.
  intros. unfold load, bind, construct, choice, options_of, build_by_extension.
  destruct (locate name s) as [[[fn|]|e] s1]; try reflexivity.
  destruct (stat fs (Some fn) s1) as [[m|e] s2]; try reflexivity.
  destruct (c_force_mode cfg) as [[|c mode]|];
    repeat match goal with |- context [if seqb ?a ?b then _ else _] => destruct (seqb a b) end; reflexivity.
Qed.

Lemma construct_inv : forall cfg fn kw s r s', construct cfg fn kw s = (r, s') ->
  modules s' = modules s /\ timestamps s' = timestamps s /\ clock s <= clock s' /\
  (forall t, r = Ok t -> exists m given, fs (clock s) fn = Some (m, t_contents t) /\ clock s' = S (clock s) /\
     t_id t = clock s' /\ choice cfg fn = Some (t_kind t, given) /\
     bind_kwargs (t_kind t) given (options_of cfg kw) = Ok (t_args t)).
Proof.
  intros cfg fn kw s r s' H. unfold construct in H. destruct (choice cfg fn) as [[k given]|].
  - apply build_inv in H as (M & T & C & R). repeat split; auto. intros t Ht.
    destruct (R t Ht) as (m & F & K & I & <- & B). exists m, given. repeat split; auto.
  - injection H as <- <-. repeat split; auto. discriminate.
Qed.

Lemma load_inv : forall cfg name kw s r s', load fs compile cfg locate name kw s = (r, s') ->
  modules s' = modules s /\ clock s <= clock s' /\
  (forall n, n <> name -> lookup n (timestamps s') = lookup n (timestamps s)) /\
  (forall t, r = Ok t -> exists fn i j m c m' given,
     cand name fn /\ clock s <= i /\ i < j /\ S j = clock s' /\
     fs i fn = Some (m, c) /\ lookup name (timestamps s') = Some m /\
     fs j fn = Some (m', t_contents t) /\ t_id t = clock s' /\
     choice cfg fn = Some (t_kind t, given) /\
     bind_kwargs (t_kind t) given (options_of cfg kw) = Ok (t_args t)).
Proof.
  intros cfg name kw s r s' H. rewrite load_eq in H.
  apply bind_inv in H as [(e & H & ->)|(o & s1 & H & H1)].
  - apply locate_frame in H as (-> & -> & ?). repeat split; auto. discriminate.
  - pose proof H as Hl. apply locate_frame in H as (M & T & C). destruct o as [fn|].
    + apply locate_cand in Hl.
      apply bind_inv in H1 as [(e & H1 & ->)|(m & s2 & H1 & H2)].
      * apply stat_inv in H1 as (-> & -> & ? & _). repeat split; auto; [lia | intros; congruence | discriminate].
      * apply stat_inv in H1 as (M1 & T1 & C1 & R1). destruct (R1 m eq_refl) as (f & c & [= <-] & F & K).
        apply construct_inv in H2 as (M2 & T2 & C2 & R2). cbn in M2, T2, C2, R2.
        repeat split; [congruence | lia | |].
        -- intros n N. rewrite T2, lookup_set_neq by auto. congruence.
        -- intros t Ht. destruct (R2 t Ht) as (m' & given & F2 & K2 & I2 & Ch & B).
           exists fn, (clock s1), (clock s2), m, c, m', given.
           rewrite T2, lookup_set_eq. repeat split; auto; lia.
    + injection H1 as <- <-. repeat split; auto; [intros; congruence | discriminate].
Qed.

Lemma base_import_inv : forall cfg name kw s r s',
  base_import (load fs compile cfg locate name kw) name s = (r, s') ->
  (exists t, lookup name (modules s) = Some t /\ r = Ok t /\ s' = s) \/
  (lookup name (modules s) = None /\ exists s1, load fs compile cfg locate name kw s = (r, s1) /\
   match r with
   | Ok t => s' = set_module name t s1
   | Raise _ => s' = s1
   end).
Proof.
  intros cfg name kw s r s' H. unfold base_import in H.
  destruct (lookup name (modules s)) as [t|] eqn:E.
  - left. injection H as <- <-. eauto.
  - right. split; [reflexivity|].
    apply bind_inv in H as [(e & H & ->)|(t & s1 & H & H1)].
    + eauto.
    + injection H1 as <- <-. eauto.
Qed.

Lemma expire_inv : forall b name fn s r s', expire fs b name fn s = (r, s') ->
  timestamps s' = timestamps s /\ clock s <= clock s' /\
  ((modules s' = modules s /\
    (forall t, r = Ok tt -> b = true -> lookup name (modules s) = Some t ->
       exists f m c old, fn = Some f /\ fs (clock s) f = Some (m, c) /\ clock s' = S (clock s) /\
         old = match lookup name (timestamps s) with Some z => z | None => 0%Z end /\ (m <= old)%Z)) \/
   (b = true /\ r = Ok tt /\ modules s' = remove name (modules s) /\
    exists f m c old t, fn = Some f /\ fs (clock s) f = Some (m, c) /\ clock s' = S (clock s) /\
         old = match lookup name (timestamps s) with Some z => z | None => 0%Z end /\ (old < m)%Z /\
         lookup name (modules s) = Some t)).
Proof.
  intros b name fn s r s' H. unfold expire in H. destruct b.
  2:{ injection H as <- <-. repeat split; auto. left. split; auto. discriminate. }
  destruct (lookup name (modules s)) as [t|] eqn:E.
  2:{ injection H as <- <-. repeat split; auto. left. split; auto. discriminate. }
  destruct (stat fs fn s) as [[m|e] s1] eqn:S.
  - apply stat_inv in S as (M & T & C & R). destruct (R m eq_refl) as (f & c & -> & F & K).
    injection H as <- <-. rewrite T.
    destruct (Z.ltb_spec (match lookup name (timestamps s) with Some z => z | None => 0%Z end) m).
    + repeat split; cbn; auto. right. rewrite M. repeat split; auto.
      exists f, m, c. eexists. exists t. repeat split; eauto.
    + repeat split; auto. left. split; auto. intros t' _ _ [= <-].
      exists f, m, c. eexists. repeat split; eauto.
  - apply stat_inv in S as (M & T & C & R). injection H as <- <-.
    repeat split; auto. left. split; auto. discriminate.
Qed.

(** ** One import *)

Notation imp := (import_with fs compile).

(** What an import does to the cache. *)
Lemma import_modules : forall cfg name kw s r s', imp cfg locate name kw s = (r, s') ->
  clock s <= clock s' /\
  (forall n, n <> name -> lookup n (modules s') = lookup n (modules s) /\
                          lookup n (timestamps s') = lookup n (timestamps s)) /\
  match r with
  | Ok t => lookup name (modules s') = Some t
  | Raise _ => lookup name (modules s') = None \/
               (exists t, lookup name (modules s) = Some t /\ modules s' = modules s /\
                          timestamps s' = timestamps s)
  end.
Proof.
  intros cfg name kw s r s' H. unfold import_with in H.
  apply bind_inv in H as [(e & H & ->)|(o & s1 & H & H1)].
  - apply locate_frame in H as (M & T & C). rewrite M, T. repeat split; auto.
    destruct (lookup name (modules s)); eauto.
  - apply locate_frame in H as (M & T & C).
    apply bind_inv in H1 as [(e & H1 & ->)|([] & s2 & H1 & H2)].
    + apply expire_inv in H1 as (T1 & C1 & [[M1 _]|(_ & Q & _)]); [|discriminate].
      rewrite M1, T1, M, T. split; [lia|]. split; [auto|].
      destruct (lookup name (modules s)); eauto.
    + apply expire_inv in H1 as (T1 & C1 & D).
      assert (Hn : forall n, n <> name -> lookup n (modules s2) = lookup n (modules s)).
      { intros n Nn. destruct D as [[M1 _]|(_ & _ & M1 & _)]; rewrite M1.
        - now rewrite M.
        - rewrite lookup_remove_neq by auto. now rewrite M. }
      apply base_import_inv in H2 as [(t & E & -> & ->)|(E & s3 & H2 & R)].
      * split; [lia|]. split; [|assumption]. intros n Nn. rewrite T1, T. auto.
      * apply load_inv in H2 as (M3 & C3 & T3 & _).
        destruct r as [t|e]; subst s'.
        -- cbn [set_module modules timestamps clock]. split; [lia|]. split; [|apply lookup_set_eq].
           intros n Nn. rewrite lookup_set_neq by auto. rewrite M3, T3, T1, T by auto. auto.
        -- split; [lia|]. split; [|left; congruence].
           intros n Nn. rewrite M3, T3, T1, T by auto. auto.
Qed.

(** A successful import: the cached template, or a newly built one. *)
Lemma import_ok : forall cfg name kw s t s', imp cfg locate name kw s = (Ok t, s') ->
  (lookup name (modules s) = Some t /\ modules s' = modules s /\ timestamps s' = timestamps s /\
   (c_reload cfg = true -> exists fn k m c old,
      cand name fn /\ clock s <= k < clock s' /\ fs k fn = Some (m, c) /\
      old = match lookup name (timestamps s) with Some z => z | None => 0%Z end /\ (m <= old)%Z)) \/
  (exists fn i j m c m' given,
     cand name fn /\ clock s <= i /\ i < j /\ j < clock s' /\
     fs i fn = Some (m, c) /\ lookup name (timestamps s') = Some m /\
     fs j fn = Some (m', t_contents t) /\ t_id t = clock s' /\
     choice cfg fn = Some (t_kind t, given) /\
     bind_kwargs (t_kind t) given (options_of cfg kw) = Ok (t_args t)).
Proof.
  intros cfg name kw s t s' H. unfold import_with in H.
  apply bind_inv in H as [(e & _ & Q)|(o & s1 & H & H1)]; [discriminate|].
  pose proof H as Hl. apply locate_frame in H as (M & T & C).
  apply bind_inv in H1 as [(e & _ & Q)|([] & s2 & H1 & H2)]; [discriminate|].
  apply expire_inv in H1 as (T1 & C1 & D).
  apply base_import_inv in H2 as [(t' & E & [= <-] & ->)|(E & s3 & H2 & ->)].
  - left. destruct D as [[M1 D]|(_ & _ & M1 & _)].
    + rewrite M1, M in E. repeat split; [congruence..|]. intros Hr.
      rewrite M in D. destruct (D t eq_refl Hr E) as (f & m & c & old & -> & F & K & -> & Le).
      rewrite T in Le. exists f, (clock s1), m, c. eexists.
      split; [eauto|]. split; [lia|]. split; [eauto|]. split; [reflexivity|]. exact Le.
    + rewrite M1, lookup_remove_eq in E. discriminate.
  - right. apply load_inv in H2 as (M3 & C3 & T3 & R).
    destruct (R t eq_refl) as (fn & i & j & m & c & m' & given & P1 & P2 & P3 & P4 & P5 & P6 & P7 & P8 & P9 & P10).
    exists fn, i, j, m, c, m', given. cbn. repeat split; auto; lia.
Qed.

(** ** Histories *)

Lemma after_app : forall f h1 h2 s, after f (h1 ++ h2) s = after f h2 (after f h1 s).
Proof. intros. unfold after. now rewrite fold_left_app. Qed.

(** Cached templates come with their timestamp, taken before their contents were read. *)
Definition Inv (s : state) : Prop :=
  forall name t, lookup name (modules s) = Some t ->
    exists fn i j m c m', cand name fn /\ i < j /\ j < clock s /\
      fs i fn = Some (m, c) /\ lookup name (timestamps s) = Some m /\
      fs j fn = Some (m', t_contents t).

Lemma Inv_new : forall n, Inv (new_loader n).
Proof. intros n name t H. discriminate. Qed.

Lemma Inv_import : forall cfg name kw s, Inv s -> Inv (snd (imp cfg locate name kw s)).
Proof.
  intros cfg name kw s I. destruct (imp cfg locate name kw s) as [r s'] eqn:E. cbn [snd].
  pose proof (import_modules _ _ _ _ _ _ E) as (C & O & R). intros n t Hn.
  destruct (str_eq_dec n name) as [->|N].
  - destruct r as [t0|e].
    + assert (t0 = t) by congruence. subst t0.
      apply import_ok in E as [(L0 & M & T & _)|(fn & i & j & m & c & m' & g & P)].
      * destruct (I name t L0) as (fn & i & j & m & c & m' & P). exists fn, i, j, m, c, m'.
        rewrite T. intuition lia.
      * exists fn, i, j, m, c, m'. intuition.
    + destruct R as [R|(t0 & R & M & T)]; [congruence|]. rewrite M in Hn. rewrite T.
      destruct (I name t Hn) as (fn & i & j & m & c & m' & P). exists fn, i, j, m, c, m'. intuition lia.
  - destruct (O n N) as [Om Ot]. rewrite Om in Hn. rewrite Ot.
    destruct (I n t Hn) as (fn & i & j & m & c & m' & P). exists fn, i, j, m, c, m'. intuition lia.
Qed.

Lemma Inv_after : forall cfg h s, Inv s -> Inv (after (imp cfg locate) h s).
Proof.
  intros cfg h. induction h as [|q h IH]; intros s I; [exact I|].
  cbn [after fold_left]. apply IH. now apply Inv_import.
Qed.


(** Never stale. *)
Lemma fresh : forall cfg name kw s t s', c_reload cfg = true -> Inv s -> mtimes_tell fs (cand name) ->
  imp cfg locate name kw s = (Ok t, s') ->
  exists fn k m, cand name fn /\ clock s <= k < clock s' /\ fs k fn = Some (m, t_contents t).
Proof.
  intros cfg name kw s t s' Hr I Tr H.
  apply import_ok in H as [(L0 & M & T & D)|(fn & i & j & m & c & m' & g & P)].
  - destruct (D Hr) as (fn & k & mk & ck & old & Cf & K & F & -> & Le).
    destruct (I name t L0) as (f0 & i & j & m & c & m' & C0 & Lij & Lj & Fi & Ts & Fj).
    rewrite Ts in Le.
    destruct (Tr i j f0 f0 m c m' (t_contents t) ltac:(lia) C0 C0 Fi Fj) as [A1 _].
    destruct (Tr j k f0 fn m' (t_contents t) mk ck ltac:(lia) C0 Cf Fj F) as [A2 A3].
    exists fn, k, mk. repeat split; auto; try lia.
    destruct (str_eq_dec (t_contents t) ck) as [->|N]; [assumption|].
    specialize (A3 N). lia.
  - exists fn, j, m'. intuition.
Qed.

(** Without reload the cache is only ever added to. *)
Lemma keep_no_reload : forall cfg name kw s t n, c_reload cfg = false ->
  lookup n (modules s) = Some t -> lookup n (modules (snd (imp cfg locate name kw s))) = Some t.
Proof.
  intros cfg name kw s t n Hr Hn. destruct (imp cfg locate name kw s) as [r s'] eqn:E. cbn [snd].
  unfold import_with in E.
  apply bind_inv in E as [(e & H & ->)|(o & s1 & H & H1)]; apply locate_frame in H as (M & T & C).
  - congruence.
  - rewrite Hr in H1. cbn in H1. apply base_import_inv in H1 as [(t' & E & -> & ->)|(E & s3 & H2 & R)].
    + congruence.
    + apply load_inv in H2 as (M3 & _). destruct r; subst s'; cbn [set_module modules]; [|congruence].
      rewrite lookup_set_neq; [congruence|]. intros ->. congruence.
Qed.

Lemma keep_after : forall cfg h s t n, c_reload cfg = false ->
  lookup n (modules s) = Some t -> lookup n (modules (after (imp cfg locate) h s)) = Some t.
Proof.
  intros cfg h. induction h as [|q h IH]; intros s t n Hr Hn; [exact Hn|].
  cbn [after fold_left]. apply IH; [assumption|]. now apply keep_no_reload.
Qed.

Lemma cached_no_reload : forall cfg name kw s t, c_reload cfg = false ->
  lookup name (modules s) = Some t ->
  fst (imp cfg locate name kw s) = Ok t \/
  exists e, fst (imp cfg locate name kw s) = Raise e /\ fst (locate name s) = Raise e.
Proof.
  intros cfg name kw s t Hr Hn. unfold import_with, bind.
  destruct (locate name s) as [[o|e] s1] eqn:E; [|right; exists e; split; reflexivity].
  left. apply locate_frame in E as (M & _ & _). rewrite Hr. cbn. unfold base_import.
  now rewrite M, Hn.
Qed.

(** An import of a name that is not cached does not depend on the history. *)
Lemma locate_load_frame : forall cfg name kw s s2,
  (forall n a b, clock a = clock b -> fst (locate n a) = fst (locate n b) /\
     clock (snd (locate n a)) = clock (snd (locate n b))) ->
  clock s = clock s2 -> lookup name (modules s) = None -> lookup name (modules s2) = None ->
  fst (imp cfg locate name kw s) = fst (imp cfg locate name kw s2).
Proof.
  intros cfg name kw s s2 Hl Hc N1 N2.
  unfold import_with, bind.
  destruct (Hl name s s2 Hc) as [A B].
  destruct (locate name s) as [[o|e] a] eqn:Ea, (locate name s2) as [[o2|e2] b] eqn:Eb;
    cbn [fst snd] in *; try congruence.
  assert (o2 = o) by congruence. subst o2.
  apply locate_frame in Ea as (Ma & Ta & _). apply locate_frame in Eb as (Mb & Tb & _).
  unfold expire. rewrite Ma, N1, Mb, N2.
  assert (K : forall u v, clock u = clock v -> lookup name (modules u) = None -> lookup name (modules v) = None ->
    fst (base_import (load fs compile cfg locate name kw) name u) =
    fst (base_import (load fs compile cfg locate name kw) name v)).
  { intros u v Cu Nu Nv. unfold base_import. rewrite Nu, Nv. unfold bind at 1 2. rewrite !load_eq.
    unfold bind. destruct (Hl name u v Cu) as [A2 B2].
    destruct (locate name u) as [[p|e] a2], (locate name v) as [[p2|e2] b2]; cbn [fst snd] in *; try congruence.
    assert (p2 = p) by congruence. subst p2. destruct p as [fn|]; [|reflexivity].
    unfold stat. rewrite B2. destruct (fs (clock b2) fn) as [[m c]|]; [|reflexivity].
    unfold construct. destruct (choice cfg fn) as [[k g]|]; [|reflexivity].
    unfold build, bind, lift. destruct (bind_kwargs _ _ _); [|reflexivity].
    unfold read_file. cbn [clock set_timestamp tick]. rewrite B2.
    destruct (fs (S (clock b2)) fn) as [[m2 c2]|]; [|reflexivity].
    destruct (compile k a0 c2); [reflexivity|]. cbn. now rewrite B2. }
  destruct (c_reload cfg); apply K; congruence.
Qed.

End Generic.
