(** * Integration with web frameworks: proofs *)

From Coq Require Import Ascii String List NArith ZArith Bool Lia Arith.
From Verif Require Import PyStr PyStrLemmas M_Loader S_Loader P_Loader P_Loader2 M_Integration S_Integration.
Import ListNotations.
Open Scope list_scope.
Open Scope nat_scope.

(** ** Dictionaries *)
Section Dict.
Variable V : Type.
Notation dict := (dict V).
Notation dset := (dset V).
Notation dget := (dget V).
Notation dupdate := (dupdate V).

Lemma dget_in : forall k (d : dict) v, dget k d = Some v -> In (k, v) d.
Proof.
  induction d as [|[k' v'] d IH]; intros v E; cbn [M_Integration.dget] in E; [discriminate|].
  destruct (seqb_spec k k') as [->|Ne]; [left; congruence|right; auto].
Qed.
Lemma in_dget : forall (d : dict) k v, NoDup (map fst d) -> In (k, v) d -> dget k d = Some v.
Proof.
  induction d as [|[k' v'] d IH]; intros k v ND I1; [destruct I1|]. cbn [map fst] in ND. apply NoDup_cons_iff in ND as [Nk ND]. cbn [M_Integration.dget].
  destruct I1 as [E|I1].
  - assert (k' = k /\ v' = v) as [-> ->] by (split; congruence). now rewrite seqb_refl.
  - destruct (seqb_spec k k') as [->|Ne]; [|auto]. exfalso. apply Nk. now apply (in_map fst) in I1.
Qed.
Lemma dset_keys : forall k v (d : dict) x, In x (map fst (dset k v d)) <-> x = k \/ In x (map fst d).
Proof.
  induction d as [|[k' v'] d IH]; intros x; cbn [M_Integration.dset map fst In]; [intuition congruence|].
  destruct (seqb_spec k k') as [->|Ne]; cbn [map fst In]; [intuition congruence|]. rewrite IH. tauto.
Qed.
Lemma dset_nodup : forall k v (d : dict), NoDup (map fst d) -> NoDup (map fst (dset k v d)).
Proof.
  induction d as [|[k' v'] d IH]; intros ND; cbn [M_Integration.dset map fst].
  - repeat constructor. intros [].
  - cbn [map fst] in ND. apply NoDup_cons_iff in ND as [Nk ND]. destruct (seqb_spec k k') as [->|Ne]; cbn [map fst]; constructor; auto.
    rewrite dset_keys. intuition.
Qed.
Lemma dset_in : forall k v (d : dict) k0 v0, NoDup (map fst d) -> In (k0, v0) (dset k v d) <-> (k0 = k /\ v0 = v) \/ (k0 <> k /\ In (k0, v0) d).
Proof.
  induction d as [|[k' v'] d IH]; intros k0 v0 ND; cbn [M_Integration.dset].
  - cbn [In]. split; [intros [E|[]]; left; split; congruence|intros [[-> ->]|[_ []]]; now left].
  - cbn [map fst] in ND. apply NoDup_cons_iff in ND as [Nk ND]. destruct (seqb_spec k k') as [->|Ne]; cbn [In].
    + split.
      * intros [E|I1]; [left; split; congruence|]. right. split; [intros ->; apply Nk; now apply (in_map fst) in I1|now right].
      * intros [[-> ->]|[N [E|I1]]]; [now left|congruence|now right].
    + rewrite IH by exact ND. split.
      * intros [E|[[-> ->]|[N I1]]]; [right; split; [congruence|now left]|now left|right; split; [exact N|now right]].
      * intros [[-> ->]|[N [E|I1]]]; [right; now left|now left|right; right; now split].
Qed.
Theorem update_variables : forall (items system : dict), NoDup (map fst system) -> has_variables V system items (dupdate system items).
Proof.
  induction items as [|[k v] items IH] using rev_ind; intros system ND; unfold M_Integration.dupdate.
  - split; [exact ND|]. intros k0 v0. split; [intros I1; apply vi_system; [intros []|exact I1]|]. intros [l1 l2 E _|_ I1]; [now destruct l1|exact I1].
  - rewrite fold_left_app. cbn [fold_left fst snd]. destruct (IH system ND) as [N1 A]. unfold M_Integration.dupdate in *. split; [now apply dset_nodup|].
    intros k0 v0. rewrite dset_in by exact N1. rewrite A. split.
    + intros [[-> ->]|[Ne [l1 l2 -> Nl|Nk I1]]].
      * apply (vi_view V system _ k v items []); [reflexivity|intros []].
      * apply (vi_view V system _ k0 v0 l1 (l2 ++ [(k, v)])); [now rewrite <- app_assoc|]. rewrite map_app. intros I1. apply in_app_or in I1 as [I1|[I1|[]]]; [auto|]. cbn [fst] in I1. congruence.
      * apply vi_system; [|exact I1]. rewrite map_app. intros I2. apply in_app_or in I2 as [I2|[I2|[]]]; [auto|]. cbn [fst] in I2. congruence.
    + intros [l1 l2 E Nl|Nk I1].
      * destruct l2 as [|x l2] using rev_ind.
        -- apply app_inj_tail in E as [_ E]. left. split; congruence.
        -- clear IHl2. change (l1 ++ (k0, v0) :: l2 ++ [x]) with (l1 ++ ((k0, v0) :: l2) ++ [x]) in E. rewrite app_assoc in E. apply app_inj_tail in E as [E <-].
           rewrite map_app in Nl. right. split; [intros ->; apply Nl, in_or_app; right; now left|]. apply (vi_view V system _ k0 v0 l1 l2); [exact E|]. intros I1. apply Nl, in_or_app. now left.
      * rewrite map_app in Nk. right. split; [intros ->; apply Nk, in_or_app; right; now left|]. apply vi_system; [|exact I1]. intros I2. apply Nk, in_or_app. now left.
Qed.
Lemma asked_name : forall pv (system : dict) v, NoDup (map fst system) -> template_name V pv system = Ok v <-> asked V pv system v.
Proof.
  intros pv system v ND. unfold template_name. split.
  - intros E. destruct (M_Integration.dget V (L "renderer_name") system) as [w|] eqn:En.
    + destruct (truthy V pv w) eqn:Et.
      * assert (w = v) by congruence. subst w. apply as_name; [now apply dget_in|exact Et].
      * destruct (M_Integration.dget V (L "renderer_info") system) as [i|] eqn:Ei; [|discriminate]. apply (as_info V pv system v i); [|now apply dget_in|exact E].
        intros w' I1. apply (in_dget _ _ _ ND) in I1. congruence.
    + destruct (M_Integration.dget V (L "renderer_info") system) as [i|] eqn:Ei; [|discriminate]. apply (as_info V pv system v i); [|now apply dget_in|exact E].
      intros w' I1. apply (in_dget _ _ _ ND) in I1. congruence.
  - intros [I1 Et|i F I1 E].
    + apply (in_dget _ _ _ ND) in I1. now rewrite I1, Et.
    + apply (in_dget _ _ _ ND) in I1. rewrite I1. destruct (M_Integration.dget V (L "renderer_name") system) as [w|] eqn:En; [|exact E].
      apply dget_in in En. now rewrite (F w En).
Qed.
End Dict.

(** ** Words *)
Lemma words_aux_spec : forall s cur, Forall (fun c => is_space c = false) cur ->
  (cur = [] -> words_of s (words_aux [] s)) /\
  (cur <> [] -> exists w rest l, s = w ++ rest /\ Forall (fun c => is_space c = false) w /\ (rest = [] \/ exists c r, rest = c :: r /\ is_space c = true) /\
     words_of rest l /\ words_aux cur s = (rev cur ++ w) :: l).
Proof.
  induction s as [|c s IH]; intros cur F.
  - split; [intros _; now apply wo_end|]. intros Nc. exists [], [], []. cbn [words_aux]. repeat split; auto.
    + apply wo_end. constructor.
    + destruct cur; [now destruct Nc|]. now rewrite app_nil_r.
  - cbn [words_aux]. destruct (is_space c) eqn:Ec.
    + pose proof (proj1 (IH [] (Forall_nil _)) eq_refl) as W.
      assert (Wc : words_of (c :: s) (words_aux [] s)).
      { inversion W as [sp Fs E1 E2|sp w rest l Fs Nw Fw Rr Wr E1 E2].
        - apply wo_end. constructor; [exact Ec|congruence].
        - change (c :: sp ++ w ++ rest) with ((c :: sp) ++ w ++ rest). apply wo_word; auto. }
      split; [intros ->; exact Wc|]. intros Nc. exists [], (c :: s), (words_aux [] s). split; [reflexivity|]. split; [constructor|]. split; [right; eauto|]. split; [exact Wc|].
      rewrite app_nil_r. now destruct cur.
    + assert (Fc : Forall (fun c => is_space c = false) (c :: cur)) by now constructor.
      destruct (proj2 (IH (c :: cur) Fc) ltac:(discriminate)) as (w & rest & l & -> & Fw & Rr & Wr & E). split.
      * intros ->. rewrite E. cbn [rev app]. apply (wo_word [] (c :: w)); auto. discriminate.
      * intros Nc. exists (c :: w), rest, l. split; [reflexivity|]. split; [now constructor|]. split; [exact Rr|]. split; [exact Wr|]. rewrite E. cbn [rev]. now rewrite <- app_assoc.
Qed.
Lemma words_skip : forall sp s, Forall (fun c => is_space c = true) sp -> words_aux [] (sp ++ s) = words_aux [] s.
Proof. induction sp as [|c sp IH]; intros s F; [reflexivity|]. apply Forall_cons_iff in F as [Fc F]. cbn [app words_aux]. rewrite Fc. cbn [app]. auto. Qed.
Lemma words_take : forall w cur rest, Forall (fun c => is_space c = false) w -> (rest = [] \/ exists c r, rest = c :: r /\ is_space c = true) -> rev cur ++ w <> [] ->
  words_aux cur (w ++ rest) = (rev cur ++ w) :: words_aux [] rest.
Proof.
  induction w as [|c w IH]; intros cur rest F R N.
  - rewrite app_nil_r in *. cbn [app]. destruct cur as [|x cur]; [now destruct N|]. destruct R as [->|(c & r & -> & Ec)]; cbn [words_aux]; [reflexivity|]. now rewrite Ec.
  - apply Forall_cons_iff in F as [Fc F]. cbn [app words_aux]. rewrite Fc, IH; [cbn [rev]; now rewrite <- app_assoc|exact F|exact R|]. cbn [rev]. rewrite <- app_assoc. exact N.
Qed.
Theorem words_exact : forall s l, words_of s l <-> words s = l.
Proof.
  intros s l. split.
  - induction 1 as [sp F|sp w rest l F Nw Fw R _ IH]; unfold words in *.
    + rewrite <- (app_nil_r sp), (words_skip sp [] F). reflexivity.
    + rewrite (words_skip _ _ F), words_take; [now rewrite IH|exact Fw|exact R|exact Nw].
  - intros <-. now apply (words_aux_spec s []).
Qed.

(** ** Dotted names *)
Lemma last_dot : forall name, In c_dot name -> exists m c, name = m ++ c_dot :: c /\ ~ In c_dot c.
Proof.
  induction name as [|x name IH]; intros I1; [destruct I1|]. destruct (in_dec N.eq_dec c_dot name) as [I2|N2].
  - destruct (IH I2) as (m & c & -> & N). exists (x :: m), c. now split.
  - destruct I1 as [->|I1]; [|contradiction]. exists [], name. now split.
Qed.
Lemma rsplit_exact : forall name m c, rsplit_dot name = Some (m, c) <-> name = m ++ c_dot :: c /\ ~ In c_dot c.
Proof.
  intros name m c. split.
  - intros E. destruct (in_dec N.eq_dec c_dot name) as [I1|N1]; [|now rewrite rsplit_dot_None in E].
    destruct (last_dot name I1) as (m' & c' & -> & N). rewrite (rsplit_dot_spec m' c' N : rsplit_dot (m' ++ c_dot :: c') = _) in E. injection E as <- <-. now split.
  - intros [-> N]. exact (rsplit_dot_spec m c N).
Qed.

(** ** Loading *)
Section Load.
Variable fs : nat -> str -> option (Z * str).
Variable compile : kind -> kwargs -> str -> option string.
Variable mode : opt.
Variable abspath : str -> str.
Notation import_ := (fun auto => pyramid_import fs compile auto mode abspath).
Definition plain_kw (kw : kwargs) : Prop := kw = [] \/ exists b, kw = [(L "is_fragment", OBool b)].

(** With reload, every template is compiled anew. *)
Lemma pyramid_fresh : forall name kw s t s', (forall k f m c, fs k f = Some (m, c) -> (0 < m)%Z) -> timestamps s = [] ->
  pyramid_import fs compile true mode abspath name kw s = (Ok t, s') ->
  exists j m, clock s <= j < clock s' /\ fs j (abspath name) = Some (m, t_contents t) /\ code_of t = pyramid_code mode (abspath name) kw (t_contents t).
Proof.
  intros name kw s t s' Pos T E. unfold pyramid_import in E. apply bind_inv in E as [(e & _ & X)|([] & s1 & E1 & E)]; [discriminate|].
  apply expire_inv in E1 as (_ & C & D). unfold base_import in E. destruct (lookup (abspath name) (modules s1)) as [t1|] eqn:El.
  - exfalso. destruct D as [[M D]|(_ & _ & M & _)]; rewrite M in El; [|now rewrite lookup_remove_eq in El].
    destruct (D t1 eq_refl eq_refl El) as (f & m & c & old & _ & F & K & -> & Le). specialize (Pos _ _ _ _ F). rewrite T in Le. cbn [lookup] in Le. lia.
  - apply bind_inv in E as [(e & _ & X)|(t1 & s2 & E2 & E)]; [discriminate|]. assert (t1 = t /\ s' = set_module (abspath name) t s2) as [-> ->] by (split; congruence).
    apply build_inv in E2 as (_ & _ & C1 & R). destruct (R t eq_refl) as (m & F & K & I & Kd & B). exists (clock s1), m. cbn [set_module clock]. split; [lia|]. split; [exact F|].
    unfold code_of, pyramid_code. rewrite Kd. unfold bind_kwargs in B. destruct (existsb _ _); [discriminate|]. destruct (forallb _ _); [|discriminate]. injection B as B. now rewrite <- B.
Qed.

(** With reload, from files that do not change. *)
Lemma pyramid_quiet : forall now name kw s, quiet_from fs (clock s) now -> (forall f m c, now f = Some (m, c) -> (0 < m)%Z) ->
  timestamps s = [] -> plain_kw kw ->
  rmap code_of (fst (pyramid_import fs compile true mode abspath name kw s)) = pyramid_answer compile mode now (abspath name) kw.
Proof.
  intros now name kw s Q Pos T Kw. unfold pyramid_import. set (n := abspath name).
  assert (B : forall s1, clock s <= clock s1 -> lookup n (modules s1) = None ->
    rmap code_of (fst (base_import (build fs compile Xml [(L "source", ONone); (L "filename", OStr n); (L "mode", mode)] kw n) n s1)) = pyramid_answer compile mode now n kw).
  { intros s1 Hc Hl. unfold base_import. rewrite Hl. unfold build, bind, M_Loader.lift.
    assert (Ek : bind_kwargs Xml [(L "source", ONone); (L "filename", OStr n); (L "mode", mode)] kw = Ok ([(L "source", ONone); (L "filename", OStr n); (L "mode", mode)] ++ kw))
      by (destruct Kw as [->|[b ->]]; reflexivity).
    rewrite Ek. unfold read_file. rewrite (Q _ n Hc). unfold pyramid_answer, pyramid_code. cbn [fst snd]. destruct (now n) as [[m c]|]; [|reflexivity].
    destruct (compile Xml _ c); reflexivity. }
  unfold bind at 1. unfold expire. destruct (lookup n (modules s)) as [t|] eqn:El; [|now apply B].
  unfold stat. rewrite (Q (clock s) n (Nat.le_refl _)). destruct (now n) as [[m c]|] eqn:En; [|unfold pyramid_answer; now rewrite En].
  assert (Ts : timestamps (tick s) = []) by exact T. rewrite Ts. cbn [lookup]. specialize (Pos n m c En). assert (Lt : (0 <? m)%Z = true) by (apply Z.ltb_lt; lia). rewrite Lt.
  apply B; [cbn [del_module tick clock]; lia|]. cbn [del_module modules]. apply lookup_remove_eq.
Qed.

(** What renderings leave. *)
Lemma run_keeps : forall auto r s, timestamps (snd (run_rendering (import_ auto) r s)) = timestamps s /\ clock s <= clock (snd (run_rendering (import_ auto) r s)).
Proof.
  induction r as [r|name i go IH]; intros s; cbn [run_rendering]; [split; [reflexivity|apply Nat.le_refl]|].
  destruct (pyramid_import fs compile auto mode abspath name (if i then include_kwargs else []) s) as [t s1] eqn:E. apply pyramid_inv in E as (T & C & _).
  destruct (IH (rmap code_of t) s1) as [T1 C1]. split; [congruence|lia].
Qed.
Lemma run_quiet : forall now r s, quiet_from fs (clock s) now -> (forall f m c, now f = Some (m, c) -> (0 < m)%Z) -> timestamps s = [] ->
  comes_to (fun name kw => pyramid_answer compile mode now (abspath name) kw) r (fst (run_rendering (import_ true) r s)).
Proof.
  intros now. induction r as [r|name i go IH]; intros s Q Pos T; cbn [run_rendering]; [constructor|].
  pose proof (pyramid_quiet now name (if i then include_kwargs else []) s Q Pos T) as A.
  destruct (pyramid_import fs compile true mode abspath name (if i then include_kwargs else []) s) as [t s1] eqn:E. apply pyramid_inv in E as (T1 & C1 & _). cbn [fst] in A.
  assert (Q1 : quiet_from fs (clock s1) now) by (intros j f Hj; apply Q; lia).
  destruct i; [apply ct_includes|apply ct_extends]; cbv beta.
  - change [(L "is_fragment", OBool true)] with include_kwargs. rewrite <- A by (right; now exists true). apply IH; auto. congruence.
  - rewrite <- A by now left. apply IH; auto. congruence.
Qed.
Lemma comes_unique : forall answer r x, comes_to answer r x -> forall y, comes_to answer r y -> x = y.
Proof. induction 1; intros y Hy; inversion Hy; subst; auto. Qed.

(** What serving leaves. *)
Section Serve.
Variable V : Type.
Variable pv : python_values V.
Variable render : code -> dict V -> rendering.
Lemma respond_keeps : forall auto value system frag s,
  timestamps (snd (respond V pv (import_ auto) render value system frag s)) = timestamps s /\ clock s <= clock (snd (respond V pv (import_ auto) render value system frag s)).
Proof.
  intros. unfold respond. destruct (rbind (template_name V pv system) (as_string V pv)) as [name|]; [|split; [reflexivity|apply Nat.le_refl]].
  destruct (pyramid_import fs compile auto mode abspath name _ s) as [[t|] s1] eqn:E; apply pyramid_inv in E as (T & C & _); [|now split].
  destruct (items_of V pv value) as [items [e|]]; [now split|].
  pose proof (run_keeps auto (render (code_of t) (dupdate V system items)) s1) as [T1 C1]. destruct (run_rendering _ _ _) as [r s2]. cbn [snd] in *. split; [congruence|lia].
Qed.
Lemma serve_keeps : forall auto q s, timestamps (serve V pv (import_ auto) render q s) = timestamps s /\ clock s <= clock (serve V pv (import_ auto) render q s).
Proof.
  intros auto [value system frag|n d v r|name kw] s; cbn [serve].
  - apply respond_keeps.
  - unfold fragment. destruct (if truthy V pv r then Ok r else request_attr V pv v) as [rq|]; [|split; [reflexivity|apply Nat.le_refl]].
    pose proof (respond_keeps auto d [(L "renderer_name", n); (L "request", rq); (L "view", v); (L "context", d)] true s) as H.
    destruct (respond _ _ _ _ _ _ _ _) as [[r0 d0] s0]. exact H.
  - destruct (pyramid_import fs compile auto mode abspath name kw s) as [t s1] eqn:E. apply pyramid_inv in E as (T & C & _). now split.
Qed.
Lemma serving_keeps : forall auto h s, timestamps (after_serving V pv (import_ auto) render h s) = timestamps s /\ clock s <= clock (after_serving V pv (import_ auto) render h s).
Proof.
  induction h as [|q h IH]; intros s; [split; [reflexivity|apply Nat.le_refl]|]. unfold after_serving in *. cbn [fold_left].
  destruct (IH (serve V pv (import_ auto) render q s)) as [T C]. destruct (serve_keeps auto q s) as [T1 C1]. split; [congruence|lia].
Qed.

(** Without reload, a template stays. *)
Lemma import_stays : forall name kw s n t, lookup n (modules s) = Some t -> lookup n (modules (snd (pyramid_import fs compile false mode abspath name kw s))) = Some t.
Proof.
  intros name kw s n t Hl. destruct (pyramid_import fs compile false mode abspath name kw s) as [r s1] eqn:E. cbn [snd]. pose proof E as E0. apply pyramid_inv in E as (_ & _ & O & _).
  destruct (seqb_spec n (abspath name)) as [->|Ne]; [|now rewrite O]. unfold pyramid_import, bind, expire, base_import in E0. rewrite Hl in E0. injection E0 as <- <-. exact Hl.
Qed.
Lemma run_stays : forall r s n t, lookup n (modules s) = Some t -> lookup n (modules (snd (run_rendering (import_ false) r s))) = Some t.
Proof.
  induction r as [r|name i go IH]; intros s n t Hl; cbn [run_rendering]; [exact Hl|].
  pose proof (import_stays name (if i then include_kwargs else []) s n t Hl) as H. destruct (pyramid_import _ _ _ _ _ _ _ _) as [x s1]. now apply IH.
Qed.
Lemma respond_stays : forall value system frag s n t, lookup n (modules s) = Some t -> lookup n (modules (snd (respond V pv (import_ false) render value system frag s))) = Some t.
Proof.
  intros value system frag s n t Hl. unfold respond. destruct (rbind (template_name V pv system) (as_string V pv)) as [name|]; [|exact Hl].
  pose proof (import_stays name [(L "is_fragment", OBool frag)] s n t Hl) as H. destruct (pyramid_import fs compile false mode abspath name _ s) as [[x|] s1]; [|exact H].
  destruct (items_of V pv value) as [items [e|]]; [exact H|]. pose proof (run_stays (render (code_of x) (dupdate V system items)) s1 n t H) as H1.
  now destruct (run_rendering _ _ _) as [r s2].
Qed.
Lemma serving_stays : forall h s n t, lookup n (modules s) = Some t -> lookup n (modules (after_serving V pv (import_ false) render h s)) = Some t.
Proof.
  induction h as [|q h IH]; intros s n t Hl; [exact Hl|]. unfold after_serving in *. cbn [fold_left]. apply IH. destruct q as [value system frag|n0 d v r|name kw]; cbn [serve].
  - now apply respond_stays.
  - unfold fragment. destruct (if truthy V pv r then Ok r else request_attr V pv v) as [rq|]; [|exact Hl].
    pose proof (respond_stays d [(L "renderer_name", n0); (L "request", rq); (L "view", v); (L "context", d)] true s n t Hl) as H.
    destruct (respond _ _ _ _ _ _ _ _) as [[r0 d0] s0]. exact H.
  - now apply import_stays.
Qed.
End Serve.
End Load.
