(** * Whole templates: outputs, and names for two representations of code *)

From Coq Require Import Ascii String List NArith ZArith Bool Lia Arith.
From Verif Require Import PyStr PyStrLemmas M_Values S_Values P_Values M_IR M_Template M_Run S_Template P_Template.
From Verif Require P_Exec.
Import ListNotations.
Open Scope list_scope.

(** ** Outputs up to joining of neighbouring strings, also inside of what functions return *)
Inductive same : list value -> list value -> Prop :=
| sm_refl : forall a, same a a
| sm_sym : forall a b, same a b -> same b a
| sm_trans : forall a b c, same a b -> same b c -> same a c
| sm_app : forall a a' b b', same a a' -> same b b' -> same (a ++ b) (a' ++ b')
| sm_join : forall s t, same [VStr (s ++ t)] [VStr s; VStr t]
| sm_flat : forall a b, same a b -> same [VFlat a] [VFlat b].

Lemma leaves_flat : forall a, flat_map leaves [VFlat a] = flat_map leaves a.
Proof. intros a. cbn [flat_map leaves]. apply app_nil_r. Qed.
Lemma same_leaves : forall a b, same a b ->
  flat_map to_str (flat_map leaves a) = flat_map to_str (flat_map leaves b) /\
  (Forall is_str (flat_map leaves a) <-> Forall is_str (flat_map leaves b)).
Proof.
  induction 1.
  - tauto.
  - destruct IHsame. split; [congruence|tauto].
  - destruct IHsame1, IHsame2. split; [congruence|tauto].
  - destruct IHsame1 as [E1 F1], IHsame2 as [E2 F2]. rewrite !flat_map_app, E1, E2. split; [reflexivity|]. rewrite !Forall_app. tauto.
  - cbn. rewrite !app_nil_r. split; [reflexivity|]. split; intros; repeat (constructor; [eexists; reflexivity|]); constructor.
  - rewrite !leaves_flat. exact IHsame.
Qed.
Lemma same_render : forall a b, same a b -> render a = render b.
Proof.
  intros a b H. unfold render, tpl_iter. rewrite !flat_iter_leaves, <- !flat_map_concat_map. now apply same_leaves.
Qed.
Lemma is_str_dec : forall l, {Forall is_str l} + {~ Forall is_str l}.
Proof.
  induction l as [|v l IH]; [left; constructor|]. destruct IH as [IH|IH]; [|right; intros F; inversion F; contradiction].
  destruct v; try (right; intros F; inversion F as [|? ? [zz F1] F2]; discriminate F1). left. constructor; [eexists; reflexivity|exact IH].
Qed.
Lemma same_accumulate : forall a b, same a b -> accumulate_str a = accumulate_str b.
Proof.
  intros a b H. destruct (same_leaves a b H) as [E F]. destruct (accumulate_str_ok a) as [A1 A2], (accumulate_str_ok b) as [B1 B2].
  destruct (is_str_dec (flat_map leaves a)) as [D|D].
  - rewrite (A1 D), (B1 (proj1 F D)). now rewrite E.
  - rewrite (A2 D), B2; [reflexivity|]. intros D'. apply D. now apply F.
Qed.
Lemma same_csum : forall a b, same a b -> P_Exec.csum a = P_Exec.csum b.
Proof.
  induction 1; try congruence.
  - now rewrite !P_Exec.csum_app, IHsame1, IHsame2.
  - unfold P_Exec.csum. cbn. now rewrite !app_nil_r.
  - unfold P_Exec.csum. cbn [collect_parts]. now rewrite (same_accumulate _ _ H).
Qed.
Lemma same_collect : forall a b, same a b -> collect a = collect b.
Proof. intros a b H. now rewrite !P_Exec.collect_csum, (same_csum _ _ H). Qed.

(** Shown values: equal, or results of functions. *)
Definition svalue (v v' : value) : Prop := v = v' \/ exists a b, v = VFlat a /\ v' = VFlat b /\ same a b.
Lemma svalue_same : forall v v', svalue v v' -> same [v] [v'].
Proof. intros v v' [->|(a & b & -> & -> & H)]; [constructor|now apply sm_flat]. Qed.
Lemma svalue_escape : forall v v', svalue v v' -> same [escape v] [escape v'].
Proof. intros v v' [->|(a & b & -> & -> & H)]; [constructor|]. cbn [escape]. now apply sm_flat. Qed.

(** ** Association lists *)
Lemma F2_length : forall T U (P : T -> U -> Prop) l l', Forall2 P l l' -> length l' = length l.
Proof. intros T U P l l' H. induction H; cbn; congruence. Qed.
Lemma F2_impl : forall T U (P Q : T -> U -> Prop) l l', (forall a b, P a b -> Q a b) -> Forall2 P l l' -> Forall2 Q l l'.
Proof. intros T U P Q l l' I H. induction H; constructor; auto. Qed.
Definition ralist {X Y : Type} (R : X -> Y -> Prop) : list (str * X) -> list (str * Y) -> Prop :=
  Forall2 (fun a b => fst a = fst b /\ R (snd a) (snd b)).
Definition ropt {X Y : Type} (R : X -> Y -> Prop) (a : option X) (b : option Y) : Prop :=
  match a, b with Some x, Some y => R x y | None, None => True | _, _ => False end.
Definition rres {X Y : Type} (R : X -> Y -> Prop) (a : result X) (b : result Y) : Prop :=
  match a, b with Ok x, Ok y => R x y | Raise x, Raise y => x = y | _, _ => False end.

Section Alist.
Context {X Y : Type} (R : X -> Y -> Prop).
Lemma ralist_get : forall k d d', ralist R d d' -> ropt R (get k d) (get k d').
Proof.
  intros k d d' H. induction H as [|[k1 v1] [k2 v2] d d' [E V] H IH]; [exact Logic.I|]. cbn [fst snd] in *. subst k2. cbn [get].
  destruct (seqb k k1); [exact V|exact IH].
Qed.
Lemma ralist_set : forall k v v' d d', ralist R d d' -> R v v' -> ralist R (set k v d) (set k v' d').
Proof.
  intros k v v' d d' H Rv. induction H as [|[k1 v1] [k2 v2] d d' [E V] H IH].
  - repeat constructor; assumption.
  - cbn [fst snd] in *. subst k2. cbn [set]. destruct (seqb k k1); constructor; try assumption; now split.
Qed.
Lemma ralist_keys : forall d d', ralist R d d' -> map fst d = map fst d'.
Proof. intros d d' H. induction H as [|a b d d' [E V] H IH]; [reflexivity|]. cbn [map]. congruence. Qed.
Lemma ralist_has : forall k d d', ralist R d d' -> has k d = has k d'.
Proof. intros k d d' H. unfold has. pose proof (ralist_get k d d' H) as G. destruct (get k d), (get k d'); try contradiction; reflexivity. Qed.
End Alist.
Lemma ralist_impl : forall X Y (R R' : X -> Y -> Prop) d d', (forall x y, R x y -> R' x y) -> ralist R d d' -> ralist R' d d'.
Proof. intros X Y R R' d d' I H. induction H as [|a b d d' [E V] H IH]; constructor; [split; auto|exact IH]. Qed.
Lemma rres_bind : forall X Y X' Y' (R : X -> Y -> Prop) (R' : X' -> Y' -> Prop) a b f g,
  rres R a b -> (forall x y, R x y -> rres R' (f x) (g y)) -> rres R' (rbind a f) (rbind b g).
Proof. intros X Y X' Y' R R' [x|x] [y|y] f g H F; cbn in *; try contradiction; [now apply F|exact H]. Qed.
Lemma rres_map : forall X Y X' Y' (R : X -> Y -> Prop) (R' : X' -> Y' -> Prop) a b f g,
  rres R a b -> (forall x y, R x y -> R' (f x) (g y)) -> rres R' (rmap f a) (rmap g b).
Proof. intros X Y X' Y' R R' [x|x] [y|y] f g H F; cbn in *; try contradiction; [now apply F|exact H]. Qed.
Lemma rres_eq : forall X (a b : result X), rres eq a b -> a = b.
Proof. intros X [x|x] [y|y] H; cbn in H; try contradiction; now subst. Qed.
Lemma rres_refl : forall X (R : X -> X -> Prop) a, (forall x, R x x) -> rres R a a.
Proof. intros X R [x|x] H; cbn; auto. Qed.

(** ** Values, instances and heaps

    [n] and [m] bound the instances and the frames that may be mentioned. *)
Section Relation.
Variables A B : Type.
Variable rf : str * A -> str * B -> Prop.

Notation gA := (gval (fobj A) (str * A)).
Notation gB := (gval (fobj B) (str * B)).
Notation heapA := (heap (fobj A) (str * A)).
Notation heapB := (heap (fobj B) (str * B)).

Definition rcode (c : fcode (str * A)) (c' : fcode (str * B)) : Prop :=
  match c, c' with Code _ f, Code _ f' => rf f f' | Trampoline _ k, Trampoline _ k' => k = k' | _, _ => False end.
Definition rtf (n : nat) (f : tplfun (str * A)) (f' : tplfun (str * B)) : Prop :=
  rcode (f_code _ f) (f_code _ f') /\ f_inst _ f' = f_inst _ f /\ f_inst _ f < n.
Inductive rgv (n m : nat) : gA -> gB -> Prop :=
| rg_val : forall v, rgv n m (val v) (val v)
| rg_clo : forall d b d' b' i ss, rf (d, b) (d', b') -> i < n -> Forall (fun f => f < m) ss ->
    rgv n m (GObj _ _ (RC d b i ss)) (GObj _ _ (RC d' b' i ss))
| rg_inst : forall i, i < n -> rgv n m (GInst _ _ i) (GInst _ _ i)
| rg_fun : forall f f', rtf n f f' -> rgv n m (GFun _ _ f) (GFun _ _ f')
| rg_defined : forall i, rgv n m (GDefined _ _ i) (GDefined _ _ i)
| rg_value_of : forall i, rgv n m (GValueOf _ _ i) (GValueOf _ _ i)
| rg_literal : rgv n m (GLiteral _ _) (GLiteral _ _)
| rg_gettext : rgv n m (GGettext _ _) (GGettext _ _)
| rg_builtins : rgv n m (GBuiltins _ _) (GBuiltins _ _)
| rg_kajiki : rgv n m (GKajiki _ _) (GKajiki _ _).
Definition rdict (n m : nat) : dict (fobj A) (str * A) -> dict (fobj B) (str * B) -> Prop := ralist (rgv n m).
Definition rcls (c : cls (fobj A) (str * A)) (c' : cls (fobj B) (str * B)) : Prop :=
  ralist rf (methods _ _ c) (methods _ _ c') /\ rdict 0 0 (base_globals _ _ c) (base_globals _ _ c').
Definition rctx (n : nat) (c : context (fobj A) (str * A)) (c' : context (fobj B) (str * B)) : Prop :=
  match c, c' with Given _ _ d, Given _ _ d' => rdict 0 0 d d' | GlobalsOf _ _ i, GlobalsOf _ _ j => i = j /\ i < n | _, _ => False end.
Definition rinst (n m : nat) (x : inst (fobj A) (str * A)) (y : inst (fobj B) (str * B)) : Prop :=
  rcls (i_class _ _ x) (i_class _ _ y) /\ rctx n (i_context _ _ x) (i_context _ _ y) /\
  rdict n m (i_globals _ _ x) (i_globals _ _ y) /\ ralist (rtf n) (i_attrs _ _ x) (i_attrs _ _ y).
Definition rheap (m : nat) (h : heapA) (h' : heapB) : Prop := Forall2 (rinst (length h) m) h h'.

Lemma rtf_mono : forall n n' f f', n <= n' -> rtf n f f' -> rtf n' f f'.
Proof. intros n n' f f' L (H1 & H2 & H3). repeat split; try assumption; lia. Qed.
Lemma rgv_mono : forall n m n' m' v v', n <= n' -> m <= m' -> rgv n m v v' -> rgv n' m' v v'.
Proof.
  intros n m n' m' v v' L1 L2 H. destruct H; constructor; try assumption; try lia.
  - eapply Forall_impl; [|eassumption]. intros a Ha. cbn in Ha. lia.
  - now apply (rtf_mono n).
Qed.
Lemma rdict_mono : forall n m n' m' d d', n <= n' -> m <= m' -> rdict n m d d' -> rdict n' m' d d'.
Proof. intros n m n' m' d d' L1 L2. apply ralist_impl. intros x y. now apply rgv_mono. Qed.
Lemma rctx_mono : forall n n' c c', n <= n' -> rctx n c c' -> rctx n' c c'.
Proof. intros n n' [d|i] [d'|j] L; cbn; try tauto. intros [E H]. split; [exact E|lia]. Qed.
Lemma rinst_mono : forall n m n' m' x y, n <= n' -> m <= m' -> rinst n m x y -> rinst n' m' x y.
Proof.
  intros n m n' m' x y L1 L2 (H1 & H2 & H3 & H4). split; [exact H1|]. split; [now apply (rctx_mono n)|]. split; [now apply (rdict_mono n m)|].
  revert H4. apply ralist_impl. intros f f'. now apply rtf_mono.
Qed.

Lemma rheap_length : forall m h h', rheap m h h' -> length h' = length h.
Proof. intros m h h' H. exact (F2_length _ _ _ _ _ H). Qed.
Lemma F2_nth : forall T U (P : T -> U -> Prop) l l' i, Forall2 P l l' -> ropt P (nth_error l i) (nth_error l' i).
Proof. intros T U P l l' i H. revert i. induction H as [|a b l l' H0 H IH]; intros [|i]; cbn; try exact Logic.I; [exact H0|apply IH]. Qed.
Lemma rheap_nth : forall m h h' i, rheap m h h' -> ropt (rinst (length h) m) (nth_error h i) (nth_error h' i).
Proof. intros m h h' i H. now apply F2_nth. Qed.
Lemma rheap_mono : forall m m' h h', m <= m' -> rheap m h h' -> rheap m' h h'.
Proof. intros m m' h h' L H. eapply F2_impl; [|exact H]. intros x y. now apply rinst_mono. Qed.

Lemma rglobals : forall m h h' i, rheap m h h' -> rdict (length h) m (globals _ _ h i) (globals _ _ h' i).
Proof.
  intros m h h' i H. pose proof (rheap_nth m h h' i H) as E. unfold globals. destruct (nth_error h i), (nth_error h' i); try contradiction; [|constructor].
  now destruct E as (_ & _ & E & _).
Qed.
Lemma rattrs : forall m h h' i, rheap m h h' -> ralist (rtf (length h)) (attrs _ _ h i) (attrs _ _ h' i).
Proof.
  intros m h h' i H. pose proof (rheap_nth m h h' i H) as E. unfold attrs. destruct (nth_error h i), (nth_error h' i); try contradiction; [|constructor].
  now destruct E as (_ & _ & _ & E).
Qed.
Lemma rcontext_of : forall m h h' c c', rheap m h h' -> rctx (length h) c c' -> rdict (length h) m (context_of _ _ h c) (context_of _ _ h' c').
Proof.
  intros m h h' [d|i] [d'|j] H C; cbn in C; try contradiction; cbn [context_of].
  - apply (rdict_mono 0 0); try lia. exact C.
  - destruct C as [<- _]. now apply rglobals.
Qed.
Lemma rupdate : forall n m d1 d1' d d', rdict n m d1 d1' -> rdict n m d d' -> rdict n m (update _ _ d d1) (update _ _ d' d1').
Proof.
  intros n m d1 d1' d d' H1. revert d d'. unfold update. induction H1 as [|[k v] [k' v'] l l' [E V] H IH]; intros d d' H0; [exact H0|].
  cbn [fold_left fst snd] in *. subst k'. apply IH. now apply ralist_set.
Qed.
Lemma rhelpers : forall n m i, i < n -> rdict n m (helpers _ _ i) (helpers _ _ i).
Proof. intros n m i Hi. unfold helpers. repeat constructor; assumption. Qed.
Lemma rbound : forall n i ms ms', i < n -> ralist rf ms ms' -> ralist (rtf n) (bound _ i ms) (bound _ i ms').
Proof.
  intros n i ms ms' Hi H. induction H as [|[k f] [k' f'] l l' [E V] H IH]; [constructor|]. constructor; [|exact IH]. cbn [fst snd] in *. split; [exact E|]. repeat split; assumption.
Qed.
Lemma rinit : forall n m i c c' ctx ctx', i < n -> rcls c c' -> rdict n m ctx ctx' ->
  rdict n m (init_globals _ _ i c ctx) (init_globals _ _ i c' ctx').
Proof.
  intros n m i c c' ctx ctx' Hi [Cm Cb] X. unfold init_globals. apply ralist_set; [|constructor].
  match goal with |- ralist _ (match get _ ?a with _ => _ end) (match get _ ?b with _ => _ end) => assert (D : rdict n m a b) end.
  { apply rupdate; [exact X|]. apply rupdate.
    - assert (Hb := rbound n i _ _ Hi Cm). induction Hb as [|a b l l' [E V] H IH]; [constructor|]. constructor; [|exact IH]. cbn [fst snd]. split; [exact E|now constructor].
    - apply rupdate; [apply (rdict_mono 0 0); try lia; exact Cb|now apply rhelpers]. }
  pose proof (ralist_get _ (L "gettext") _ _ D) as G.
  match goal with |- context [match get ?k ?a with _ => _ end] => destruct (get k a) end;
  match goal with |- context [match get ?k ?a with _ => _ end] => destruct (get k a) end; try contradiction; [now apply ralist_set|exact D].
Qed.
Lemma rnew : forall m h h' c c' ctx ctx', rheap m h h' -> rcls c c' -> rctx (length h) ctx ctx' ->
  rheap m (fst (new _ _ h c ctx)) (fst (new _ _ h' c' ctx')) /\ snd (new _ _ h' c' ctx') = snd (new _ _ h c ctx).
Proof.
  intros m h h' c c' ctx ctx' H C X. unfold new. cbn [fst snd]. rewrite (rheap_length _ _ _ H). split; [|reflexivity].
  unfold rheap. rewrite app_length. cbn [length]. apply Forall2_app.
  - eapply F2_impl; [|exact H]. intros x y. apply rinst_mono; lia.
  - constructor; [|constructor]. split; [exact C|]. cbn [i_context i_globals i_attrs]. split; [apply (rctx_mono (length h)); [lia|exact X]|]. split.
    + apply rinit; [lia|exact C|]. apply (rdict_mono (length h) m); try lia. now apply rcontext_of.
    + apply rbound; [lia|now destruct C].
Qed.

Lemma rput : forall n m h h' i x y, Forall2 (rinst n m) h h' -> rinst n m x y -> Forall2 (rinst n m) (put _ _ h i x) (put _ _ h' i y).
Proof. intros n m h h' i x y H X. revert i. induction H as [|a b h h' H0 H IH]; intros [|i]; cbn [put]; constructor; auto. Qed.
Lemma rwith_globals : forall m h h' i d d', rheap m h h' -> rdict (length h) m d d' -> rheap m (with_globals _ _ h i d) (with_globals _ _ h' i d').
Proof.
  intros m h h' i d d' H D. unfold rheap. rewrite length_with. pose proof (rheap_nth m h h' i H) as E. unfold with_globals.
  destruct (nth_error h i) as [x|], (nth_error h' i) as [y|]; try contradiction; [|exact H]. apply rput; [exact H|].
  destruct E as (E1 & E2 & E3 & E4). exact (conj E1 (conj E2 (conj D E4))).
Qed.
Lemma rwith_attrs : forall m h h' i d d', rheap m h h' -> ralist (rtf (length h)) d d' -> rheap m (with_attrs _ _ h i d) (with_attrs _ _ h' i d').
Proof.
  intros m h h' i d d' H D. unfold rheap. rewrite length_attrs. pose proof (rheap_nth m h h' i H) as E. unfold with_attrs.
  destruct (nth_error h i) as [x|], (nth_error h' i) as [y|]; try contradiction; [|exact H]. apply rput; [exact H|].
  destruct E as (E1 & E2 & E3 & E4). exact (conj E1 (conj E2 (conj E3 D))).
Qed.

Lemma ris_fun : forall n m v v', rgv n m v v' -> is_fun _ _ v = is_fun _ _ v'.
Proof. intros n m v v' H. now destruct H. Qed.
Lemma roverrides : forall n m d d', rdict n m d d' -> rdict n m (overrides _ _ d) (overrides _ _ d').
Proof.
  intros n m d d' H. unfold overrides. induction H as [|[k v] [k' v'] l l' [E V] H IH]; [constructor|]. cbn [filter fst snd] in *. subst k'.
  rewrite (ris_fun _ _ _ _ V). destruct (_ && _); [constructor; [now split|exact IH]|exact IH].
Qed.
Lemma length_inherit : forall obj fn i (h : heap obj fn) kv, length (inherit _ _ i h kv) = length h.
Proof.
  intros obj fn i h [k v]. unfold inherit. destruct (_ || _); [reflexivity|]. destruct (has k _); destruct (hasattr _ _ _ _ _); rewrite ?length_attrs, ?length_with; reflexivity.
Qed.
Lemma rinherit : forall m i h h' k v v', i < length h -> rheap m h h' -> rgv (length h) m v v' ->
  rheap m (inherit _ _ i h (k, v)) (inherit _ _ i h' (k, v')).
Proof.
  intros m i h h' k v v' Hi H V. unfold inherit. rewrite (ris_fun _ _ _ _ V). destruct (_ || _); [exact H|].
  rewrite (ralist_has _ k _ _ (rglobals m h h' i H)).
  assert (H2 : rheap m (if has k (globals _ _ h' i) then h else with_globals _ _ h i (set k v (globals _ _ h i)))
                       (if has k (globals _ _ h' i) then h' else with_globals _ _ h' i (set k v' (globals _ _ h' i)))).
  { destruct (has k _); [exact H|]. apply rwith_globals; [exact H|]. apply ralist_set; [now apply rglobals|exact V]. }
  match type of H2 with rheap _ ?a ?b => set (h2 := a) in *; set (h2' := b) in * end.
  assert (L2 : length h2 = length h) by (unfold h2; destruct (has k _); [reflexivity|apply length_with]). clearbody h2 h2'.
  unfold hasattr. rewrite (ralist_has _ k _ _ (rattrs m h2 h2' i H2)). destruct (_ || _); [exact H2|].
  apply rwith_attrs; [exact H2|]. apply ralist_set; [now apply (rattrs m)|]. repeat split. cbn [f_inst]. lia.
Qed.
Lemma rinherit_all : forall m i d d' h h', i < length h -> rheap m h h' -> rdict (length h) m d d' ->
  rheap m (fold_left (inherit _ _ i) d h) (fold_left (inherit _ _ i) d' h').
Proof.
  intros m i d d' h h' Hi H D. revert h h' Hi H D. intros h h' Hi H D. remember (length h) as n eqn:En. revert h h' En H Hi.
  induction D as [|[k v] [k' v'] l l' [E V] D IH]; intros h h' En H Hi; [exact H|]. cbn [fold_left fst snd] in *. subst k'. apply IH.
  - now rewrite length_inherit.
  - apply rinherit; [lia|exact H|now rewrite <- En].
  - exact Hi.
Qed.
Lemma length_inherits : forall obj fn i d (h : heap obj fn), length (fold_left (inherit _ _ i) d h) = length h.
Proof. intros obj fn i d. induction d as [|kv d IH]; intros h; [reflexivity|]. cbn [fold_left]. now rewrite IH, length_inherit. Qed.
Lemma length_new : forall obj fn (h : heap obj fn) c ctx, length (fst (new _ _ h c ctx)) = S (length h).
Proof. intros. unfold new. cbn [fst]. rewrite app_length. cbn [length]. lia. Qed.

Lemma rextend : forall m h h' i c c', rheap m h h' -> rcls c c' ->
  rres (fun a b => rheap m (fst a) (fst b) /\ snd b = snd a /\ length (fst a) = S (length h) /\ snd a = length h) (extend _ _ h i c) (extend _ _ h' i c').
Proof.
  intros m h h' i c c' H C. unfold extend. pose proof (rheap_nth m h h' i H) as E.
  destruct (nth_error h i) as [x|] eqn:Ex, (nth_error h' i) as [y|] eqn:Ey; try contradiction; [|reflexivity].
  destruct E as (_ & EX & _). assert (Hi : i < length h) by (apply nth_error_Some; congruence).
  destruct (rnew m h h' c c' _ _ H C EX) as [HN HS]. pose proof (length_new _ _ h c (i_context _ _ x)) as LN.
  assert (SN : snd (new _ _ h c (i_context _ _ x)) = length h) by reflexivity.
  destruct (new _ _ h c (i_context _ _ x)) as [h1 p], (new _ _ h' c' (i_context _ _ y)) as [h1' p']. cbn [fst snd] in *. subst p' p.
  set (p := length h) in *.
  assert (H2 := rwith_globals m h1 h1' p _ _ HN (rupdate _ _ _ _ _ _ (roverrides _ _ _ _ (rglobals m h1 h1' i HN)) (rglobals m h1 h1' p HN))).
  set (h2 := with_globals _ _ h1 p _) in *. set (h2' := with_globals _ _ h1' p _) in *.
  assert (L2 : length h2 = S p) by (unfold h2; rewrite length_with; exact LN). clearbody h2 h2'.
  assert (H3 := rinherit_all m i _ _ h2 h2' (eq_ind_r (fun z => i < z) (Nat.lt_lt_succ_r _ _ Hi) L2) H2 (rglobals m h2 h2' p H2)).
  set (h3 := fold_left _ _ h2) in *. set (h3' := fold_left _ _ h2') in *.
  assert (L3 : length h3 = S p) by (unfold h3; rewrite length_inherits; exact L2). clearbody h3 h3'.
  assert (GI : forall j, j < S p -> rgv (S p) m (GInst _ _ j) (GInst _ _ j)) by (intros; now constructor).
  assert (ST : forall a a' j k v v', rheap m a a' -> length a = S p -> rgv (S p) m v v' ->
    rheap m (with_globals _ _ a j (set k v (globals _ _ a j))) (with_globals _ _ a' j (set k v' (globals _ _ a' j)))).
  { intros a a' j k v v' Ha La Hv. apply rwith_globals; [exact Ha|]. apply ralist_set; [now apply rglobals|now rewrite La]. }
  assert (H4 := ST h3 h3' p (L "child") _ _ H3 L3 (GI i (Nat.lt_lt_succ_r _ _ Hi))).
  set (h4 := with_globals _ _ h3 p _) in *. set (h4' := with_globals _ _ h3' p _) in *.
  assert (L4 : length h4 = S p) by (unfold h4; rewrite length_with; exact L3). clearbody h4 h4'.
  assert (H5 := ST h4 h4' p (L "local") _ _ H4 L4 (GI p (Nat.lt_succ_diag_r _))).
  set (h5 := with_globals _ _ h4 p _) in *. set (h5' := with_globals _ _ h4' p _) in *.
  assert (L5 : length h5 = S p) by (unfold h5; rewrite length_with; exact L4). clearbody h5 h5'.
  pose proof (ralist_get _ (L "self") _ _ (rglobals m h5 h5' i H5)) as HSelf.
  destruct (get (L "self") (globals _ _ h5 i)) as [s|], (get (L "self") (globals _ _ h5' i)) as [s'|]; try contradiction; [|reflexivity].
  cbn [ropt] in HSelf. rewrite L5 in HSelf. cbn [rres fst snd].
  assert (H6 := ST h5 h5' p (L "self") _ _ H5 L5 HSelf).
  set (h6 := with_globals _ _ h5 p _) in *. set (h6' := with_globals _ _ h5' p _) in *.
  assert (L6 : length h6 = S p) by (unfold h6; rewrite length_with; exact L5). clearbody h6 h6'.
  assert (H7 := ST h6 h6' i (L "parent") _ _ H6 L6 (GI p (Nat.lt_succ_diag_r _))).
  set (h7 := with_globals _ _ h6 i _) in *. set (h7' := with_globals _ _ h6' i _) in *.
  assert (L7 : length h7 = S p) by (unfold h7; rewrite length_with; exact L6). clearbody h7 h7'.
  assert (H8 := ST h7 h7' i (L "local") _ _ H7 L7 (GI i (Nat.lt_lt_succ_r _ _ Hi))).
  split; [exact H8|]. split; [reflexivity|]. split; [|reflexivity]. rewrite length_with. exact L7.
Qed.
Lemma rimport : forall m h h' name alias c c' g, rheap m h h' -> rcls c c' -> g < length h ->
  let a := import_ _ _ h name alias c g in let b := import_ _ _ h' name alias c' g in
  rheap m (fst a) (fst b) /\ snd b = snd a /\ length (fst a) = S (length h) /\ snd a = length h.
Proof.
  intros m h h' name alias c c' g H C Hg. cbv zeta. unfold import_.
  assert (X : rctx (length h) (GlobalsOf _ _ g) (GlobalsOf _ _ g)) by (now split).
  destruct (rnew m h h' c c' _ _ H C X) as [HN HS]. pose proof (length_new _ _ h c (GlobalsOf _ _ g)) as LN.
  assert (SN : snd (new _ _ h c (GlobalsOf _ _ g)) = length h) by reflexivity.
  destruct (new _ _ h c (GlobalsOf _ _ g)) as [h1 p], (new _ _ h' c' (GlobalsOf _ _ g)) as [h1' p']. cbn [fst snd] in *. subst p' p.
  split; [|split; [reflexivity|split; [|reflexivity]]].
  - apply rwith_globals; [exact HN|]. apply ralist_set; [now apply rglobals|constructor; lia].
  - rewrite length_with. exact LN.
Qed.

Lemma rresolve : forall m b h h' i k, rheap m h h' ->
  rres (rgv (length h) m) (resolve _ _ (fun k => option_map val (b k)) h i k) (resolve _ _ (fun k => option_map val (b k)) h' i k).
Proof.
  intros m b h h' i k H. unfold resolve. pose proof (ralist_get _ k _ _ (rglobals m h h' i H)) as E.
  destruct (get k _), (get k _); try contradiction; [exact E|]. destruct (b k); cbn; [constructor|reflexivity].
Qed.
Lemma ras_instance : forall n m h h' v v', rgv n m v v' -> rres (fun a b => b = a /\ a < n) (as_instance _ _ h v) (as_instance _ _ h' v').
Proof. intros n m h h' v v' H. destruct H; cbn; try reflexivity. now split. Qed.
Lemma rgetattr : forall m h h' i k, rheap m h h' -> rres (rtf (length h)) (getattr _ _ h i k) (getattr _ _ h' i k).
Proof.
  intros m h h' i k H. unfold getattr. pose proof (ralist_get _ k _ _ (rattrs m h h' i H)) as E.
  destruct (get k _), (get k _); try contradiction; [exact E|reflexivity].
Qed.
Lemma rtarget : forall m b fuel h h' f f', rheap m h h' -> rtf (length h) f f' ->
  rres (fun a b => rf (fst a) (fst b) /\ snd b = snd a /\ snd a < length h)
       (target _ _ (fun k => option_map val (b k)) fuel h f) (target _ _ (fun k => option_map val (b k)) fuel h' f').
Proof.
  intros m b. induction fuel as [|fuel IH]; intros h h' f f' H (F1 & F2 & F3); cbn [target];
    destruct (f_code _ f), (f_code _ f'); cbn in F1; try contradiction; try (cbn; now repeat split).
  subst k0. rewrite F2. apply (rres_bind _ _ _ _ (rgv (length h) m)); [now apply rresolve|]. intros v v' V.
  apply (rres_bind _ _ _ _ (fun a b => b = a /\ a < length h)); [now apply (ras_instance _ m)|]. intros p p' [-> Hp].
  apply (rres_bind _ _ _ _ (rtf (length h))); [now apply (rgetattr m)|]. intros g g' G. now apply IH.
Qed.
End Relation.
