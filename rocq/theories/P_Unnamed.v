(** * Proofs: names that a template does not mention *)

From Coq Require Import Ascii String List Arith NArith ZArith Bool Lia Permutation.
From Verif Require Import PyStr PyStrLemmas M_Values P_Values M_IR S_IR P_IR3 M_Template S_Template P_Template P_Template2 M_Run S_Unnamed.
From Verif Require M_Exec.
Import ListNotations.
Open Scope list_scope.

(** ** Results that correspond *)
Definition rel {A B : Type} (R : A -> B -> Prop) (r : result A) (r' : result B) : Prop :=
  match r, r' with Ok a, Ok b => R a b | Raise e, Raise e' => e = e' | _, _ => False end.
Lemma rel_bind : forall A B C D (R : A -> B -> Prop) (Q : C -> D -> Prop) r r' f g,
  rel R r r' -> (forall a b, R a b -> rel Q (f a) (g b)) -> rel Q (rbind r f) (rbind r' g).
Proof. intros A B C D R Q [a|e] [b|e'] f g H1 H2; cbn [rel rbind] in *; try contradiction; [now apply H2|exact H1]. Qed.
Lemma rel_map : forall A B C D (R : A -> B -> Prop) (Q : C -> D -> Prop) r r' f g,
  rel R r r' -> (forall a b, R a b -> Q (f a) (g b)) -> rel Q (rmap f r) (rmap g r').
Proof. intros A B C D R Q [a|e] [b|e'] f g H1 H2; cbn [rel rmap] in *; try contradiction; [now apply H2|exact H1]. Qed.
Lemma rel_eq : forall A (r r' : result A), rel eq r r' <-> r = r'.
Proof. intros A [a|e] [b|e']; cbn [rel]; split; intros H; try contradiction; try discriminate; congruence. Qed.
Lemma rel_same : forall A (P : A -> Prop) (r : result A), (forall a, r = Ok a -> P a) -> rel (fun a b => a = b /\ P a) r r.
Proof. intros A P [a|e] H; cbn [rel]; auto. Qed.

Section Unnamed.
Variable py : python.
Variable used : str -> Prop.
Hypothesis Run : forall k, In k run_time_names -> used k.
Hypothesis Ask : (forall k, In k asks_by_name -> ~ used k) \/ (forall k, used k).
Notation bcls := (cls (fobj bcode) (str * bcode)).
Notation bdict := (dict (fobj bcode) (str * bcode)).
Notation bheap := (heap (fobj bcode) (str * bcode)).
Notation tfun := (tplfun (str * bcode)).
Notation globals := (globals (fobj bcode) (str * bcode)).
Notation attrs := (attrs (fobj bcode) (str * bcode)).
Notation builtin := (fun k => option_map (@val bcode) (builtin_value py k)).

Definition clean_code (l : bcode) : Prop := forall b x, In b l -> In x (mentioned py b) -> used x.
Definition clean_fun (f : tfun) : Prop :=
  match f_code _ f with Code _ c => clean_code (snd c) | Trampoline _ k => used k end.
Definition clean (v : bval) : Prop :=
  match v with
  | GObj _ _ (RC _ b _ _) => clean_code b
  | GFun _ _ f => clean_fun f
  | GDefined _ _ _ | GValueOf _ _ _ => forall k, used k
  | _ => True
  end.
Definition clean_class (c : bcls) : Prop :=
  Forall (fun kf => clean_code (snd (snd kf))) (methods _ _ c) /\ Forall (fun kv => clean (snd kv)) (base_globals _ _ c).

Definition rel_dict (d d' : bdict) : Prop :=
  a_dict d /\ a_dict d' /\ forall k, used k -> get k d = get k d' /\ forall v, get k d = Some v -> clean v.
Definition rel_context (c c' : context (fobj bcode) (str * bcode)) : Prop :=
  match c, c' with Given _ _ d, Given _ _ d' => rel_dict d d' | GlobalsOf _ _ i, GlobalsOf _ _ i' => i = i' | _, _ => False end.
Record rel_heap (h h' : bheap) : Prop := {
  rh_length : length h = length h';
  rh_globals : forall i, rel_dict (globals h i) (globals h' i);
  rh_attrs : forall i k, used k -> get k (attrs h i) = get k (attrs h' i) /\ forall f, get k (attrs h i) = Some f -> clean_fun f;
  rh_self : forall i, i < length h -> get (L "self") (globals h i) <> None;
  rh_context : forall i x x', nth_error h i = Some x -> nth_error h' i = Some x' -> rel_context (i_context _ _ x) (i_context _ _ x') }.

Ltac rt := apply Run; cbn [run_time_names map In]; tauto.
Lemma u_local : used (L "local"). Proof. rt. Qed.
Lemma u_self : used (L "self"). Proof. rt. Qed.
Lemma u_gettext : used (L "gettext"). Proof. rt. Qed.
Lemma u_parent : used (L "parent"). Proof. rt. Qed.
Lemma u_main : used (L "__main__"). Proof. rt. Qed.
Lemma u_kj : used (L "__kj__"). Proof. rt. Qed.

Lemma rel_nil : rel_dict [] [].
Proof. repeat split; try constructor. intros v E. discriminate E. Qed.
Lemma rel_set : forall k v d d', rel_dict d d' -> clean v -> rel_dict (set k v d) (set k v d').
Proof.
  intros k v d d' (D & D' & H) C. split; [now apply set_dict|]. split; [now apply set_dict|]. intros k' U. rewrite !get_set.
  destruct (seqb k' k); [|now apply H]. split; [reflexivity|]. intros v' E. assert (v' = v) by congruence. now subst v'.
Qed.
Lemma get_update_clean : forall k (d' d : bdict) v, get k (update _ _ d d') = Some v -> In (k, v) d' \/ get k d = Some v.
Proof.
  intros k d'. unfold update. induction d' as [|[k1 v1] d' IH]; intros d v E; cbn [fold_left] in E; [now right|].
  apply IH in E. destruct E as [I1|E]; [left; now right|]. cbn [fst snd] in E. rewrite get_set in E. destruct (seqb_spec k k1) as [->|Ne]; [|now right].
  assert (v = v1) by congruence. subst v1. left. now left.
Qed.

(** The helpers, base globals and functions of a new instance. *)
Definition own (i : nat) (c : bcls) : bdict :=
  update _ _ (update _ _ (helpers _ _ i) (base_globals _ _ c)) (map (fun kf => (fst kf, GFun _ _ (snd kf))) (bound _ i (methods _ _ c))).
Lemma own_clean : forall i c k v, clean_class c -> used k -> get k (own i c) = Some v -> clean v.
Proof.
  intros i c k v [Cm Cb] U E. apply get_update_clean in E. destruct E as [I1|E].
  - apply in_map_iff in I1. destruct I1 as ([k1 f] & E1 & I1). assert (v = GFun _ _ f) by (cbn [fst snd] in E1; congruence). subst v. unfold bound in I1. apply in_map_iff in I1.
    destruct I1 as ([k2 c2] & E2 & I2). rewrite Forall_forall in Cm. specialize (Cm _ I2). assert (f = TplFunc _ (Code _ c2) i) by (cbn [fst snd] in E2; congruence). now subst f.
  - apply get_update_clean in E. destruct E as [I1|E].
    + rewrite Forall_forall in Cb. exact (Cb _ I1).
    + apply get_helpers in E. destruct E; try exact Logic.I. cbn [clean]. destruct Ask as [A|A]; [|exact A]. destruct (A (L "defined")); [now left|exact U].
Qed.
Lemma own_self : forall i c, get (L "self") (own i c) <> None.
Proof.
  intros i c. assert (X : forall (d' d : bdict), get (L "self") d <> None -> get (L "self") (update _ _ d d') <> None).
  { unfold update. induction d' as [|[k1 v1] d' IH]; intros d E; cbn [fold_left]; [exact E|]. apply IH. cbn [fst snd]. rewrite get_set. destruct (seqb (L "self") k1); [discriminate|exact E]. }
  apply X, X. discriminate.
Qed.
Lemma init_get : forall i c ctx k, a_dict ctx -> get k (init_globals _ _ i c ctx) =
  if seqb k (L "value_of") then Some (GValueOf _ _ i) else
  let at_ k := match get k ctx with Some v => Some v | None => get k (own i c) end in
  if seqb k (L "_") then match at_ (L "gettext") with Some v => Some v | None => at_ k end else at_ k.
Proof.
  intros i c ctx k D. unfold init_globals. fold (own i c). cbv zeta. rewrite get_set. destruct (seqb k (L "value_of")); [reflexivity|].
  assert (G : forall k, get k (update _ _ (own i c) ctx) = match get k ctx with Some v => Some v | None => get k (own i c) end) by (intros k0; now apply get_update).
  rewrite <- (G (L "gettext")). destruct (get (L "gettext") (update _ _ (own i c) ctx)) as [v|] eqn:E.
  - rewrite get_set. destruct (seqb k (L "_")); [reflexivity|apply G].
  - destruct (seqb k (L "_")); apply G.
Qed.
Lemma rel_init : forall i c d d', clean_class c -> rel_dict d d' -> rel_dict (init_globals _ _ i c d) (init_globals _ _ i c d') /\
  get (L "self") (init_globals _ _ i c d) <> None.
Proof.
  intros i c d d' C (D & D' & H).
  assert (At : forall k, used k -> match get k d with Some v => Some v | None => get k (own i c) end = match get k d' with Some v => Some v | None => get k (own i c) end /\
    forall v, match get k d with Some v => Some v | None => get k (own i c) end = Some v -> clean v).
  { intros k U. destruct (H k U) as [E Cl]. rewrite <- E. split; [reflexivity|]. intros v. destruct (get k d) as [v1|]; [exact (Cl v)|]. now apply own_clean. }
  split.
  - split; [apply init_dict|]. split; [apply init_dict|]. intros k U. rewrite !init_get by assumption. destruct (seqb_spec k (L "value_of")) as [->|Ne].
    + split; [reflexivity|]. intros v E. assert (v = GValueOf _ _ i) by congruence. subst v. cbn [clean]. destruct Ask as [A|A]; [|exact A]. destruct (A (L "value_of")); [now right; left|exact U].
    + cbv zeta. destruct (At (L "gettext") u_gettext) as [Eg Cg]. destruct (At k U) as [Ek Ck]. destruct (seqb k (L "_")); [|now split]. rewrite <- Eg, <- Ek. split; [reflexivity|].
      intros v E. destruct (match get (L "gettext") d with Some v => Some v | None => get (L "gettext") (own i c) end) as [v1|]; [now apply Cg|now apply Ck].
  - rewrite init_get by assumption. change (match get (L "self") d with Some v => Some v | None => get (L "self") (own i c) end <> None). destruct (get (L "self") d); [discriminate|apply own_self].
Qed.

(** ** Instances *)
Lemma get_bound_clean : forall i c k f, clean_class c -> get k (bound _ i (methods _ _ c)) = Some f -> clean_fun f.
Proof.
  intros i c k f [Cm _] E. rewrite get_bound in E. destruct (get k (methods _ _ c)) as [m|] eqn:Em; [|discriminate]. cbn [option_map] in E. assert (f = TplFunc _ (Code _ m) i) by congruence. subst f.
  apply get_some_in in Em. rewrite Forall_forall in Cm. exact (Cm _ Em).
Qed.
Lemma rel_ctx_dict : forall h h' c c', rel_heap h h' -> rel_context c c' -> rel_dict (context_of _ _ h c) (context_of _ _ h' c').
Proof. intros h h' [d|i] [d'|i'] R C; cbn [rel_context context_of] in *; try contradiction; [exact C|]. subst i'. apply (rh_globals _ _ R). Qed.
Lemma rel_new : forall h h' c k k', rel_heap h h' -> clean_class c -> rel_context k k' ->
  rel_heap (fst (new _ _ h c k)) (fst (new _ _ h' c k')) /\ snd (new _ _ h c k) = snd (new _ _ h' c k').
Proof.
  intros h h' c k k' R C K. assert (En := rh_length _ _ R). assert (Rd := rel_ctx_dict _ _ _ _ R K). destruct (rel_init (length h) c _ _ C Rd) as [Ri Rs].
  split; [|exact En]. constructor.
  - unfold new. cbn [fst]. rewrite !app_length. cbn [length]. lia.
  - intros i. rewrite !globals_new, <- En. destruct (Nat.eqb_spec i (length h)) as [->|Ne]; [exact Ri|apply (rh_globals _ _ R)].
  - intros i k0 U. rewrite !attrs_new, <- En. destruct (Nat.eqb i (length h)); [|now apply (rh_attrs _ _ R)]. split; [reflexivity|]. intros f. now apply get_bound_clean.
  - intros i Hi. rewrite globals_new. destruct (Nat.eqb_spec i (length h)) as [->|Ne]; [exact Rs|]. apply (rh_self _ _ R). unfold new in Hi. cbn [fst] in Hi. rewrite app_length in Hi. cbn [length] in Hi. lia.
  - intros i x x' E E'. unfold new in E, E'. cbn [fst] in E, E'. destruct (Nat.lt_ge_cases i (length h)) as [Lt|Ge].
    + rewrite nth_error_app1 in E by exact Lt. rewrite nth_error_app1 in E' by lia. exact (rh_context _ _ R _ _ _ E E').
    + rewrite nth_error_app2 in E by exact Ge. rewrite nth_error_app2 in E' by lia. rewrite <- En in E'. destruct (i - length h) as [|n]; cbn [nth_error] in E, E'; [|destruct n; discriminate].
      assert (i_context _ _ x = k) as -> by (assert (X : x = Inst _ _ c k (init_globals _ _ (length h) c (context_of _ _ h k)) (bound _ (length h) (methods _ _ c))) by congruence; now rewrite X).
      assert (exists a b, x' = Inst _ _ c k' a b) as (a & b & ->) by (eexists; eexists; symmetry; injection E'; intros Q; exact Q). exact K.
Qed.
Lemma rel_with : forall h h' i d d', rel_heap h h' -> rel_dict d d' -> get (L "self") d <> None -> rel_heap (with_globals _ _ h i d) (with_globals _ _ h' i d').
Proof.
  intros h h' i d d' R Rd Sd. assert (En := rh_length _ _ R). destruct (Nat.lt_ge_cases i (length h)) as [Lt|Ge].
  - constructor.
    + now rewrite !length_with.
    + intros j. rewrite !globals_with by lia. destruct (Nat.eqb i j); [exact Rd|apply (rh_globals _ _ R)].
    + intros j k U. rewrite !attrs_with. now apply (rh_attrs _ _ R).
    + intros j Hj. rewrite length_with in Hj. rewrite globals_with by exact Lt. destruct (Nat.eqb i j); [exact Sd|now apply (rh_self _ _ R)].
    + intros j x x' E E'. destruct (nth_error h j) as [y|] eqn:Ey.
      * destruct (proj2 (shape_with _ _ h i d) j y Ey) as (z & Ez & _ & Cz). destruct (nth_error h' j) as [y'|] eqn:Ey'.
        -- destruct (proj2 (shape_with _ _ h' i d') j y' Ey') as (z' & Ez' & _ & Cz'). assert (z = x) by congruence. assert (z' = x') by congruence. subst. rewrite Cz, Cz'. exact (rh_context _ _ R _ _ _ Ey Ey').
        -- apply nth_error_None in Ey'. assert (j < length h) by (apply nth_error_Some; congruence). lia.
      * apply nth_error_None in Ey. assert (j < length (with_globals _ _ h i d)) by (apply nth_error_Some; congruence). rewrite length_with in *. lia.
  - unfold with_globals. assert (nth_error h i = None) as -> by (now apply nth_error_None). assert (nth_error h' i = None) as -> by (apply nth_error_None; lia). exact R.
Qed.
Lemma rel_import : forall h h' name alias c g, rel_heap h h' -> clean_class c ->
  rel_heap (fst (import_ _ _ h name alias c g)) (fst (import_ _ _ h' name alias c g)) /\ snd (import_ _ _ h name alias c g) = snd (import_ _ _ h' name alias c g).
Proof.
  intros h h' name alias c g R C. unfold import_. destruct (rel_new h h' c (GlobalsOf _ _ g) (GlobalsOf _ _ g) R C eq_refl) as [R1 E1].
  destruct (new _ _ h c (GlobalsOf _ _ g)) as [h1 r]. destruct (new _ _ h' c (GlobalsOf _ _ g)) as [h1' r']. cbn [fst snd] in *. subst r'. split; [|reflexivity].
  destruct (Nat.lt_ge_cases g (length h1)) as [Lt|Ge].
  - apply rel_with; [exact R1|apply rel_set; [apply (rh_globals _ _ R1)|exact Logic.I]|]. rewrite get_set. destruct (seqb _ _); [discriminate|now apply (rh_self _ _ R1)].
  - assert (En := rh_length _ _ R1). unfold with_globals. assert (nth_error h1 g = None) as -> by (now apply nth_error_None). assert (nth_error h1' g = None) as -> by (apply nth_error_None; lia). exact R1.
Qed.

(** ** Inheritance *)
Lemma rel_extend : forall h h' i c, rel_heap h h' -> clean_class c ->
  rel (fun a b => rel_heap (fst a) (fst b) /\ snd a = snd b) (extend _ _ h i c) (extend _ _ h' i c).
Proof.
  intros h h' i c R C. assert (En := rh_length _ _ R). destruct (nth_error h i) as [x|] eqn:Ex.
  2:{ unfold extend. rewrite Ex. assert (nth_error h' i = None) as -> by (apply nth_error_None; apply nth_error_None in Ex; lia). reflexivity. }
  assert (Hi : i < length h) by (apply nth_error_Some; congruence). destruct (nth_error h' i) as [x'|] eqn:Ex'; [|apply nth_error_None in Ex'; lia].
  destruct (rh_globals _ _ R i) as (Di & Di' & Hg). destruct (Hg _ u_self) as [Es Cs]. destruct (get (L "self") (globals h i)) as [s|] eqn:E1; [|now destruct (rh_self _ _ R i Hi)].
  symmetry in Es. specialize (Cs s eq_refl).
  destruct (extend_spec _ _ h i x c s Ex Di E1) as (h1 & X1 & L1 & C1 & (y1 & N1 & _ & K1) & O1 & D1a & D1b & G1p & G1i & A1p & A1i).
  destruct (extend_spec _ _ h' i x' c s Ex' Di' Es) as (h2 & X2 & L2 & C2 & (y2 & N2 & _ & K2) & O2 & D2a & D2b & G2p & G2i & A2p & A2i).
  rewrite X1, X2. cbn [rel fst snd]. split; [|exact En]. rewrite <- En in *.
  assert (Rc := rh_context _ _ R _ _ _ Ex Ex'). assert (Rd := rel_ctx_dict _ _ _ _ R Rc). destruct (rel_init (length h) c _ _ C Rd) as [(_ & _ & Ri) Rs].
  assert (Fa : forall k, used k -> fun_at _ _ k (globals h i) = fun_at _ _ k (globals h' i) /\ forall v, fun_at _ _ k (globals h i) = Some v -> clean v).
  { intros k U. destruct (Hg k U) as [E Cl]. unfold fun_at. rewrite <- E. split; [reflexivity|]. intros v. destruct (seqb k (L "__main__")); [discriminate|].
    destruct (get k (globals h i)) as [w|]; [|discriminate]. destruct (is_fun _ _ w); [|discriminate]. exact (Cl v). }
  assert (Pg : forall k, used k -> parent_globals _ _ h i x c k = parent_globals _ _ h' i x' c k /\ forall v, parent_globals _ _ h i x c k = Some v -> clean v).
  { intros k U. unfold parent_globals. rewrite <- En. destruct (Fa k U) as [E Cl]. destruct (Ri k U) as [E' Cl']. rewrite <- E, <- E'. split; [reflexivity|]. unfold or_else. intros v.
    destruct (fun_at _ _ k (globals h i)) as [w|]; [exact (Cl v)|exact (Cl' v)]. }
  assert (Fo : forall k, used k -> fun_of _ _ k (parent_globals _ _ h i x c k) = fun_of _ _ k (parent_globals _ _ h' i x' c k) /\ forall v, fun_of _ _ k (parent_globals _ _ h i x c k) = Some v -> clean v).
  { intros k U. destruct (Pg k U) as [E Cl]. unfold fun_of. rewrite <- E. split; [reflexivity|]. intros v. destruct (seqb k (L "__main__")); [discriminate|].
    destruct (parent_globals _ _ h i x c k) as [w|]; [|discriminate]. destruct (is_fun _ _ w); [|discriminate]. exact (Cl v). }
  assert (Rp : rel_dict (globals h1 (length h)) (globals h2 (length h))).
  { split; [exact D1b|]. split; [exact D2b|]. intros k U. rewrite G1p, G2p. destruct (seqb k (L "self")); [split; [reflexivity|]; intros v E; assert (v = s) by congruence; now subst v|].
    destruct (seqb k (L "local")); [split; [reflexivity|]; intros v E; assert (v = GInst _ _ (length h)) by congruence; now subst v|].
    destruct (seqb k (L "child")); [split; [reflexivity|]; intros v E; assert (v = GInst _ _ i) by congruence; now subst v|]. exact (Pg k U). }
  assert (Rg : rel_dict (globals h1 i) (globals h2 i)).
  { split; [exact D1a|]. split; [exact D2a|]. intros k U. rewrite G1i, G2i. destruct (seqb k (L "local")); [split; [reflexivity|]; intros v E; assert (v = GInst _ _ i) by congruence; now subst v|].
    destruct (seqb k (L "parent")); [split; [reflexivity|]; intros v E; assert (v = GInst _ _ (length h)) by congruence; now subst v|].
    destruct (Hg k U) as [E Cl]. destruct (Fo k U) as [E' Cl']. rewrite <- E, <- E'. split; [reflexivity|]. unfold or_else. intros v. destruct (get k (globals h i)) as [w|]; [exact (Cl v)|exact (Cl' v)]. }
  constructor.
  - congruence.
  - intros j. destruct (Nat.eq_dec j i) as [->|Ne]; [exact Rg|]. destruct (Nat.eq_dec j (length h)) as [->|Ne2]; [exact Rp|].
    destruct (O1 j Ne Ne2) as [-> _]. destruct (O2 j Ne Ne2) as [-> _]. apply (rh_globals _ _ R).
  - intros j k U. destruct (Nat.eq_dec j i) as [->|Ne]; [|destruct (Nat.eq_dec j (length h)) as [->|Ne2]].
    + rewrite A1i, A2i. destruct (rh_attrs _ _ R i k U) as [E Cl]. destruct (Fo k U) as [E' _]. rewrite <- E, <- E'. split; [reflexivity|]. unfold or_else. intros f.
      destruct (get k (attrs h i)) as [w|]; [exact (Cl f)|]. destruct (fun_of _ _ k _); [|discriminate]. destruct (smem k template_attributes); [discriminate|].
      intros E2. assert (f = TplFunc _ (Trampoline _ k) i) by congruence. subst f. exact U.
    + rewrite A1p, A2p. split; [reflexivity|]. intros f. now apply get_bound_clean.
    + destruct (O1 j Ne Ne2) as [_ ->]. destruct (O2 j Ne Ne2) as [_ ->]. now apply (rh_attrs _ _ R).
  - intros j Hj. destruct (Nat.eq_dec j (length h)) as [->|Ne2].
    + rewrite G1p. change (Some s <> None). discriminate.
    + destruct (Nat.eq_dec j i) as [->|Ne].
      * rewrite G1i. change (or_else (get (L "self") (globals h i)) (fun_of _ _ (L "self") (parent_globals _ _ h i x c (L "self"))) <> None). rewrite E1. discriminate.
      * destruct (O1 j Ne Ne2) as [-> _]. apply (rh_self _ _ R). lia.
  - intros j z z' Ez Ez'. destruct (Nat.lt_ge_cases j (length h)) as [Lt|Ge].
    + destruct (nth_error h j) as [y|] eqn:Ey; [|apply nth_error_None in Ey; lia]. destruct (nth_error h' j) as [y'|] eqn:Ey'; [|apply nth_error_None in Ey'; lia].
      destruct (C1 j y Ey) as (q & Eq & _ & Kq). destruct (C2 j y' Ey') as (q' & Eq' & _ & Kq'). assert (q = z) by congruence. assert (q' = z') by congruence. subst. rewrite Kq, Kq'. exact (rh_context _ _ R _ _ _ Ey Ey').
    + assert (j < length h1) by (apply nth_error_Some; congruence). assert (j = length h) by lia. subst j. assert (y1 = z) by congruence. assert (y2 = z') by congruence. subst. rewrite K1, K2. exact Rc.
Qed.

(** ** Names and functions *)
Definition clean_frame (fr : frame bcode) : Prop := Forall (fun kv => clean (snd kv)) (fr_vars fr).
Definition rel_world (w w' : world bcode) : Prop :=
  rel_heap (w_heap w) (w_heap w') /\ w_frames w = w_frames w' /\ Forall clean_frame (w_frames w).
Notation same P := (fun a b => a = b /\ P a).
Notation anyP := (fun _ => True).

Lemma rel_resolve : forall h h' i k, rel_heap h h' -> used k -> rel (same clean) (resolve _ _ builtin h i k) (resolve _ _ builtin h' i k).
Proof.
  intros h h' i k R U. unfold resolve. destruct (rh_globals _ _ R i) as (_ & _ & H). destruct (H k U) as [<- Cl]. destruct (get k (globals h i)) as [v|]; [split; auto|].
  destruct (builtin_value py k); cbn [option_map rel]; [split; [reflexivity|exact Logic.I]|reflexivity].
Qed.
Lemma find_clean : forall fs ss err x v, Forall clean_frame fs -> find_name fs err ss x = Some (Ok v) -> clean v.
Proof.
  intros fs ss. induction ss as [|f ss IH]; intros err x v F E; cbn [find_name] in E; [discriminate|]. destruct (nth_error fs f) as [fr|] eqn:Ef; [|now apply (IH "NameError"%string x)].
  destruct (smem x (fr_names fr)); [|now apply (IH "NameError"%string x)]. destruct (get x (fr_vars fr)) as [w|] eqn:Eg; [|discriminate]. assert (w = v) by congruence. subst w.
  apply nth_error_In in Ef. rewrite Forall_forall in F. specialize (F _ Ef). apply get_some_in in Eg. unfold clean_frame in F. rewrite Forall_forall in F. exact (F _ Eg).
Qed.
Lemma rel_lookup : forall w w' p x, rel_world w w' -> used x -> rel (same clean) (lookup py w p x) (lookup py w' p x).
Proof.
  intros w w' p x (R & E & F) U. unfold lookup. rewrite <- E. destruct (find_name (w_frames w) _ (p_scopes p) x) as [r|] eqn:Ef; [|now apply rel_resolve].
  apply rel_same. intros v ->. eapply find_clean; eassumption.
Qed.
Lemma rel_reads : forall w w' p xs, rel_world w w' -> (forall x, In x xs -> used x) -> reads py w p xs = reads py w' p xs.
Proof.
  intros w w' p xs R U. unfold reads. apply map_ext_in. intros x I1. apply rel_eq. eapply rel_map; [apply (rel_lookup _ _ p x R), U, I1|]. intros a b [-> _]. reflexivity.
Qed.
Lemma rel_getattr : forall h h' i k, rel_heap h h' -> used k -> rel (same clean_fun) (getattr _ _ h i k) (getattr _ _ h' i k).
Proof. intros h h' i k R U. unfold getattr. destruct (rh_attrs _ _ R i k U) as [<- Cl]. destruct (get k (attrs h i)); [split; auto|reflexivity]. Qed.
Lemma rel_method : forall h h' i k, rel_heap h h' -> used k -> rel (same clean_fun) (method h i k) (method h' i k).
Proof.
  intros h h' i k R U. unfold method. assert (X := rel_getattr h h' i k R U). destruct (getattr _ _ h i k), (getattr _ _ h' i k); cbn [rel] in *; try contradiction; [exact X|]. subst.
  destruct (smem k template_attributes); reflexivity.
Qed.
Lemma rel_target : forall fuel h h' f, rel_heap h h' -> clean_fun f ->
  rel (same (fun ci => clean_code (snd (fst ci)))) (target _ _ builtin fuel h f) (target _ _ builtin fuel h' f).
Proof.
  induction fuel as [|fuel IH]; intros h h' [[c|k] i] R C; cbn [target f_code f_inst rel]; try (split; [reflexivity|exact C]); [reflexivity|].
  eapply rel_bind; [apply rel_resolve; [exact R|exact u_parent]|]. intros v v' [<- _]. destruct v; cbn [as_instance rbind rel]; try reflexivity.
  eapply rel_bind; [apply rel_getattr; [exact R|exact C]|]. intros g g' [<- Cg]. now apply IH.
Qed.
Definition clean_callable (c : callable bcode) : Prop := clean_code (snd (fst (fst c))).
Lemma rel_tpl_callable : forall h h' f, rel_heap h h' -> clean_fun f -> rel (same clean_callable) (tpl_callable py h f) (tpl_callable py h' f).
Proof.
  intros h h' f R C. unfold tpl_callable. rewrite <- (rh_length _ _ R). eapply rel_map; [now apply rel_target|]. intros a b [<- Ca]. split; [reflexivity|exact Ca].
Qed.
Definition clean_found (f : found bcode) : Prop := match f with FTemplate c => clean_callable c | FBuiltin g => clean g | _ => True end.
Lemma rel_find_callee : forall w w' p c, rel_world w w' -> (forall x, In x (callee_names c) -> used x) -> rel (same clean_found) (find_callee py w p c) (find_callee py w' p c).
Proof.
  intros w w' p c R U. assert (Rh := proj1 R). destruct c as [f|o f]; cbn [find_callee callee_names] in *.
  - eapply rel_bind; [apply rel_lookup; [exact R|apply U; now left]|]. intros g g' [<- Cg]. destruct g as [[v|d b i ss]|i|t|i|i| | | |]; cbn [rel]; try reflexivity; try (split; [reflexivity|exact Cg]).
    eapply rel_map; [now apply rel_tpl_callable|]. intros a b [<- Ca]. split; [reflexivity|exact Ca].
  - eapply rel_bind; [apply rel_lookup; [exact R|apply U; now left]|]. intros g g' [<- Cg]. destruct g as [[v|d b i ss]|i|t|i|i| | | |]; cbn [rel]; try reflexivity; try (split; [reflexivity|exact Logic.I]).
    eapply rel_bind; [apply rel_method; [exact Rh|apply U; now right; left]|]. intros t t' [<- Ct]. eapply rel_map; [now apply rel_tpl_callable|]. intros a b [<- Ca]. split; [reflexivity|exact Ca].
Qed.
Lemma rel_call_builtin : forall h h' g args, rel_heap h h' -> clean g -> call_builtin py h g args = call_builtin py h' g args.
Proof.
  intros h h' g args R C. destruct g; try reflexivity; cbn [clean] in C; destruct (rh_globals _ _ R i) as (_ & _ & H); cbn [call_builtin];
  destruct args as [|[[?|] v] [|[[?|] ?] [|? ?]]]; try reflexivity; destruct v; try reflexivity; unfold has; rewrite (proj1 (H _ (C _))); reflexivity.
Qed.
Lemma rel_eval_arg : forall w w' p a, rel_world w w' -> (forall x, In x (arg_names a) -> used x) -> rel (same clean) (eval_arg py w p a) (eval_arg py w' p a).
Proof.
  intros w w' p [x|xs f] R U; cbn [eval_arg arg_names] in *; [apply rel_lookup; [exact R|apply U; now left]|]. rewrite (rel_reads w w' p xs R U). apply rel_same. intros a E.
  destruct (f _); cbn [rmap] in E; [|discriminate]. assert (a = val a0) as -> by congruence. exact Logic.I.
Qed.
Definition clean_args (l : list (option str * bval)) : Prop := Forall (fun kv => clean (snd kv)) l.
Lemma rel_eval_args : forall w w' p l, rel_world w w' -> (forall x, In x (flat_map (fun ka => arg_names (snd ka)) l) -> used x) ->
  rel (same clean_args) (eval_args py w p l) (eval_args py w' p l).
Proof.
  intros w w' p l R. induction l as [|[k a] l IH]; intros U; cbn [eval_args]; [split; [reflexivity|constructor]|]. cbn [flat_map snd] in U.
  eapply rel_bind; [apply rel_eval_arg; [exact R|]; intros x I1; apply U, in_or_app; now left|]. intros v v' [<- Cv].
  eapply rel_map; [apply IH; intros x I1; apply U, in_or_app; now right|]. intros m m' [<- Cm]. split; [reflexivity|]. now constructor.
Qed.
Lemma clean_val : forall (r : result value) a, rmap val r = Ok a -> clean a.
Proof. intros [v|e] a E; cbn [rmap] in E; [|discriminate]. assert (a = val v) as -> by congruence. exact Logic.I. Qed.
Lemma rel_eval : forall w w' p e, rel_world w w' -> (forall x, In x (expr_names e) -> used x) -> rel (same clean) (eval py w p e) (eval py w' p e).
Proof.
  intros w w' p e R U. assert (Rh := proj1 R). destruct e as [x|o k|xs f|c args]; cbn [eval expr_names] in *.
  - apply rel_lookup; [exact R|apply U; now left].
  - eapply rel_bind; [apply rel_lookup; [exact R|apply U; now left]|]. intros g g' [<- Cg]. destruct g as [[v|d b i ss]|i|t|i|i| | | |]; cbn [rel]; try reflexivity.
    + apply rel_same. intros a. apply clean_val.
    + eapply rel_map; [apply rel_method; [exact Rh|apply U; now right; left]|]. intros t t' [<- Ct]. split; [reflexivity|exact Ct].
  - rewrite (rel_reads w w' p xs R U). apply rel_same. intros a. apply clean_val.
  - eapply rel_bind; [apply rel_find_callee; [exact R|]; intros x I1; apply U, in_or_app; now left|]. intros fo fo' [<- Cf].
    eapply rel_bind; [apply rel_eval_args; [exact R|]; intros x I1; apply U, in_or_app; now right|]. intros l l' [<- Cl].
    destruct fo as [f|v|v k|g]; cbn [rel]; try reflexivity; try (apply rel_same; intros a; apply clean_val).
    rewrite (rel_call_builtin _ _ g (values l) Rh Cf). apply rel_same; intros a; apply clean_val.
Qed.
Lemma rel_evalue : forall w w' p x, rel_world w w' -> (forall y, In y (source_names py x) -> used y) -> evalue py w p x = evalue py w' p x.
Proof. intros w w' p x R U. unfold evalue. apply rel_eq. eapply rel_map; [now apply rel_eval|]. intros a b [-> _]. reflexivity. Qed.
Lemma rel_condition : forall w w' p x, rel_world w w' -> (forall y, In y (source_names py x) -> used y) -> condition py w p x = condition py w' p x.
Proof. intros w w' p x R U. unfold condition. now rewrite (rel_evalue w w' p x R U). Qed.
Lemma rel_attributes : forall w w' p x, rel_world w w' -> (forall y, In y (source_names py x) -> used y) -> attributes py w p x = attributes py w' p x.
Proof. intros w w' p x R U. unfold attributes. now rewrite (rel_evalue w w' p x R U). Qed.
Lemma rseq_forall : forall A (P : A -> Prop) l xs, Forall (fun r => forall a, r = Ok a -> P a) l -> rseq l = Ok xs -> Forall P xs.
Proof.
  intros A P l. induction l as [|r l IH]; intros xs F E; cbn [rseq] in E; [assert (xs = []) as -> by congruence; constructor|]. apply Forall_cons_iff in F. destruct F as [F1 F2].
  destruct r as [a|]; cbn [rbind] in E; [|discriminate]. destruct (rseq l) as [ys|]; cbn [rmap] in E; [|discriminate]. assert (xs = a :: ys) as -> by congruence. constructor; auto.
Qed.
Lemma rel_rounds : forall w w' p d, rel_world w w' -> (forall y, In y (expr_names (snd (parse_for py d))) -> used y) ->
  rel (same (Forall (Forall (fun kv => clean (snd kv))))) (rounds py w p d) (rounds py w' p d).
Proof.
  intros w w' p d R U. unfold rounds. destruct (parse_for py d) as [xs e]. cbn [snd] in U. eapply rel_bind; [now apply rel_eval|]. intros g g' [<- _]. apply rel_same. intros l E.
  destruct (iterate py (as_value g)) as [items|]; cbn [rbind] in E; [|discriminate]. revert E. apply rseq_forall. apply Forall_map, Forall_forall. intros v _ a E.
  assert (X : forall vs : list value, Forall (fun kv : str * bval => clean (snd kv)) (combine xs (map val vs))).
  { intros vs. apply Forall_forall. intros [k u] I1. apply in_combine_r in I1. apply in_map_iff in I1. destruct I1 as (u' & <- & _). exact Logic.I. }
  destruct xs as [|x [|x2 xs]].
  - destruct (unpack py v); cbn [rbind] in E; [|discriminate]. destruct (Nat.eqb _ _); [|discriminate]. assert (a = combine [] (map val a0)) as -> by congruence. apply X.
  - assert (a = [(x, val v)]) as -> by congruence. constructor; [exact Logic.I|constructor].
  - destruct (unpack py v); cbn [rbind] in E; [|discriminate]. destruct (Nat.eqb _ _); [|discriminate]. assert (a = combine (x :: x2 :: xs) (map val a0)) as -> by congruence. apply X.
Qed.

(** Assignments. *)
Lemma clean_set : forall x v (d : list (str * bval)), Forall (fun kv => clean (snd kv)) d -> clean v -> Forall (fun kv => clean (snd kv)) (set x v d).
Proof.
  intros x v d F C. induction d as [|[k u] d IH]; cbn [set]; [constructor; [exact C|constructor]|]. apply Forall_cons_iff in F. destruct F as [F1 F2].
  destruct (seqb x k); constructor; auto.
Qed.
Lemma clean_put : forall (fs : list (frame bcode)) i fr, Forall clean_frame fs -> clean_frame fr -> Forall clean_frame (put_frame fs i fr).
Proof. induction fs as [|f fs IH]; intros [|i] fr F C; cbn [put_frame]; try constructor; apply Forall_cons_iff in F; destruct F; auto. Qed.
Lemma rel_set_name : forall w w' p x v, rel_world w w' -> clean v -> rel_world (set_name w p x v) (set_name w' p x v).
Proof.
  intros w w' p x v R C. assert (R' := R). destruct R as (Rh & E & F). unfold set_name. rewrite <- E. destruct (p_scopes p) as [|f ss]; [exact R'|]. destruct (nth_error (w_frames w) f) as [fr|] eqn:Ef; [|exact R'].
  split; [exact Rh|]. cbn [w_frames]. split; [reflexivity|]. apply clean_put; [exact F|]. unfold clean_frame. cbn [fr_vars]. apply clean_set; [|exact C].
  apply nth_error_In in Ef. rewrite Forall_forall in F. exact (F _ Ef).
Qed.
Lemma rel_set_names : forall p l w w', rel_world w w' -> Forall (fun kv => clean (snd kv)) l -> rel_world (set_names w p l) (set_names w' p l).
Proof. intros p l. induction l as [|[x v] l IH]; intros w w' R F; cbn [set_names]; [exact R|]. apply Forall_cons_iff in F. destruct F as [F1 F2]. apply IH; [now apply rel_set_name|exact F2]. Qed.
Lemma rel_bind_some : forall p xs vs w w', rel_world w w' -> rel_world (bind_some w p xs vs) (bind_some w' p xs vs).
Proof. intros p xs. induction xs as [|x xs IH]; intros [|[v|] vs] w w' R; cbn [bind_some]; try exact R; apply IH; [apply rel_set_name; [exact R|exact Logic.I]|exact R]. Qed.
Lemma rel_run_block : forall p l w w', rel_world w w' -> (forall x, In x (flat_map pystm_reads l) -> used x) ->
  rel (fun a b => fst a = fst b /\ rel_world (snd a) (snd b)) (run_block py w p l) (run_block py w' p l).
Proof.
  intros p l. induction l as [|[x e|xs ys f] l IH]; intros w w' R U; cbn [run_block]; [split; [reflexivity|exact R]| |]; cbn [flat_map pystm_reads] in U.
  - eapply rel_bind; [apply rel_eval; [exact R|]; intros y I1; apply U, in_or_app; now left|]. intros v v' [<- Cv]. apply IH; [now apply rel_set_name|]. intros y I1. apply U, in_or_app. now right.
  - rewrite (rel_reads w w' p xs R) by (intros y I1; apply U, in_or_app; now left). destruct (f (reads py w' p xs)) as [r|]; cbn [rbind rel]; [|reflexivity].
    eapply rel_map; [apply IH; [now apply rel_bind_some|]; intros y I1; apply U, in_or_app; now right|]. intros a b [E R1]. cbn [fst snd]. split; [now rewrite E|exact R1].
Qed.
Lemma rel_instance : forall w w' p x, rel_world w w' -> used x -> instance py w p x = instance py w' p x.
Proof. intros w w' p x R U. unfold instance. apply rel_eq. eapply rel_bind; [now apply rel_lookup|]. intros g g' [<- _]. now apply rel_eq. Qed.
Lemma rel_translate : forall w w' p t, rel_world w w' -> translate py w p t = translate py w' p t.
Proof.
  intros w w' p t R. unfold translate. rewrite (rel_instance w w' p _ R u_local). destruct (instance py w' p (L "local")) as [i|]; cbn [rbind]; [|reflexivity].
  destruct (rh_globals _ _ (proj1 R) i) as (_ & _ & H). now rewrite (proj1 (H _ u_gettext)).
Qed.

(** ** States *)
Record rel_state (s s' : state) : Prop := {
  rs_world : rel_world (s_world s) (s_world s');
  rs_with : forall i, s_with s i = s_with s' i /\ Forall (Forall clean) (s_with s i);
  rs_switch : forall i, s_switch s i = s_switch s' i }.
Definition rel_out (r r' : list value * state) : Prop := fst r = fst r' /\ rel_state (snd r) (snd r').
Definition rel_out3 (r r' : list value * M_Exec.chain * state) : Prop := fst r = fst r' /\ rel_state (snd r) (snd r').
Lemma rel_set_world : forall s s' w w', rel_state s s' -> rel_world w w' -> rel_state (set_world s w) (set_world s' w').
Proof. intros s s' w w' R Rw. constructor; [exact Rw|apply (rs_with _ _ R)|apply (rs_switch _ _ R)]. Qed.
Lemma rel_with_with : forall s s' i x, rel_state s s' -> Forall (Forall clean) x -> rel_state (with_with s i x) (with_with s' i x).
Proof.
  intros s s' i x R C. constructor; [apply (rs_world _ _ R)| |apply (rs_switch _ _ R)]. intros j. unfold with_with, upd. cbn [s_with]. destruct (Nat.eqb j i); [split; [reflexivity|exact C]|apply (rs_with _ _ R)].
Qed.
Lemma rel_with_switch : forall s s' i x, rel_state s s' -> rel_state (with_switch s i x) (with_switch s' i x).
Proof.
  intros s s' i x R. constructor; [apply (rs_world _ _ R)|apply (rs_with _ _ R)|]. intros j. unfold with_switch, upd. cbn [s_switch]. destruct (Nat.eqb j i); [reflexivity|apply (rs_switch _ _ R)].
Qed.
Lemma rel_new_stacks : forall s s' w w' i, rel_state s s' -> rel_world w w' -> rel_state (new_stacks s w i) (new_stacks s' w' i).
Proof.
  intros s s' w w' i R Rw. constructor; [exact Rw| |]; intros j; unfold new_stacks, upd; cbn [s_with s_switch]; destruct (Nat.eqb j i).
  - split; [reflexivity|constructor].
  - apply (rs_with _ _ R).
  - reflexivity.
  - apply (rs_switch _ _ R).
Qed.

Variable load : bool -> str -> result bcls.
Hypothesis Load : forall fragment name c, load fragment name = Ok c -> clean_class c.
Lemma rel_import_template : forall w w' p name alias, rel_world w w' ->
  rel (fun a b => rel_world (fst a) (fst b) /\ snd a = snd b) (import_template py load w p name alias) (import_template py load w' p name alias).
Proof.
  intros w w' p name alias R. unfold import_template. rewrite (rel_instance w w' p _ R u_local), (rel_instance w w' p _ R u_self).
  destruct (instance py w' p (L "local")) as [i|]; cbn [rbind rel]; [|reflexivity]. destruct (instance py w' p (L "self")) as [g|]; cbn [rbind rel]; [|reflexivity].
  destruct (load true name) as [c|] eqn:El; cbn [rmap rel]; [|reflexivity]. destruct (rel_import (w_heap w) (w_heap w') name alias c g (proj1 R) (Load _ _ _ El)) as [R1 E1].
  destruct (import_ _ _ (w_heap w) name alias c g) as [h r]. destruct (import_ _ _ (w_heap w') name alias c g) as [h' r']. cbn [fst snd] in *. split; [|exact E1]. split; [exact R1|exact (proj2 R)].
Qed.
Lemma rel_extend_template : forall w w' p name, rel_world w w' ->
  rel (fun a b => rel_world (fst a) (fst b) /\ snd a = snd b) (extend_template py load w p name) (extend_template py load w' p name).
Proof.
  intros w w' p name R. unfold extend_template. rewrite (rel_instance w w' p _ R u_local).
  destruct (instance py w' p (L "local")) as [i|]; cbn [rbind rel]; [|reflexivity]. destruct (load false name) as [c|] eqn:El; cbn [rbind rel]; [|reflexivity].
  eapply rel_map; [exact (rel_extend (w_heap w) (w_heap w') i c (proj1 R) (Load _ _ _ El))|]. intros [h r] [h' r'] [R1 E1]. cbn [fst snd] in *. split; [|exact E1]. split; [exact R1|exact (proj2 R)].
Qed.
Lemma rel_main_of : forall h h' i, rel_heap h h' -> rel (same clean_callable) (main_of py h i) (main_of py h' i).
Proof. intros h h' i R. unfold main_of. eapply rel_bind; [apply rel_getattr; [exact R|exact u_main]|]. intros f f' [<- Cf]. now apply rel_tpl_callable. Qed.
Lemma rel_bind_args : forall d l x, clean_args l -> bind_args py d l = Ok x -> Forall (fun kv : str * bval => clean (snd kv)) x.
Proof.
  intros d l x C E. unfold bind_args in E. destruct (bind_params py d (map fst l)) as [ps|]; cbn [rbind] in E; [|discriminate]. revert E. apply rseq_forall. apply Forall_map, Forall_forall.
  intros [k [n|v]] _ a E; cbn [fst snd] in E.
  - destruct (nth_error l n) as [u|] eqn:En; [|discriminate]. assert (a = (k, snd u)) as -> by congruence. apply nth_error_In in En. unfold clean_args in C. rewrite Forall_forall in C. exact (C _ En).
  - assert (a = (k, val v)) as -> by congruence. exact Logic.I.
Qed.

Section Level.
Variable inv : callable bcode -> list (str * bval) -> state -> result (list value * state).
Hypothesis Inv : forall c params s s', clean_callable c -> Forall (fun kv => clean (snd kv)) params -> rel_state s s' -> rel rel_out (inv c params s) (inv c params s').
Variable p : place.

Lemma rel_call_function : forall c l s s', clean_callable c -> clean_args l -> rel_state s s' ->
  rel (fun a b => fst a = fst b /\ rel_state (snd a) (snd b)) (call_function py inv c l s) (call_function py inv c l s').
Proof.
  intros c l s s' C Cl R. unfold call_function. destruct (bind_args py (fst (fst (fst c))) l) as [ps|] eqn:E; cbn [rbind rel]; [|reflexivity].
  eapply rel_map; [apply Inv; [exact C|exact (rel_bind_args _ _ _ Cl E)|exact R]|]. intros a b [E1 R1]. cbn [fst snd]. rewrite E1. split; [reflexivity|exact R1].
Qed.
Lemma rel_show_value : forall x s s', rel_state s s' -> (forall y, In y (source_names py x) -> used y) ->
  rel (fun a b => fst a = fst b /\ rel_state (snd a) (snd b)) (show_value py s_world inv p x s) (show_value py s_world inv p x s').
Proof.
  intros x s s' R U. assert (Rw := rs_world _ _ R). unfold show_value. rewrite (rel_evalue _ _ p x Rw U).
  assert (X : rel (fun a b : value * state => fst a = fst b /\ rel_state (snd a) (snd b)) (rmap (fun v => (v, s)) (evalue py (s_world s') p x)) (rmap (fun v => (v, s')) (evalue py (s_world s') p x))).
  { destruct (evalue py (s_world s') p x); cbn [rmap rel fst snd]; [split; [reflexivity|exact R]|reflexivity]. }
  unfold source_names in U. destruct (parse py x) as [y|o k|xs f|c args] eqn:E; try exact X. cbn [expr_names] in U.
  eapply rel_bind; [apply rel_find_callee; [exact Rw|]; intros y I1; apply U, in_or_app; now left|]. intros fo fo' [<- Cf]. destruct fo as [f|v|v k|g]; try exact X.
  eapply rel_bind; [apply rel_eval_args; [exact Rw|]; intros y I1; apply U, in_or_app; now right|]. intros l l' [<- Cl]. now apply rel_call_function.
Qed.
Lemma rel_guarded : forall g v s s', rel_state s s' -> (forall y, In y (guard_names py g) -> used y) -> rel rel_out3 (guarded py p g v s) (guarded py p g v s').
Proof.
  intros g v s s' R U. unfold guarded. destruct g as [e|].
  - rewrite (rel_condition _ _ p e (rs_world _ _ R) U). destruct (condition py (s_world s') p e) as [[|]|]; cbn [rbind rel]; [| |reflexivity].
    + destruct v; cbn [rmap rel]; [split; [reflexivity|exact R]|reflexivity].
    + split; [reflexivity|exact R].
  - destruct v; cbn [rmap rel]; [split; [reflexivity|exact R]|reflexivity].
Qed.
Lemma rel_local_value : forall w w' k, rel_world w w' -> local_value w p k = local_value w' p k /\ forall v, local_value w p k = Some v -> clean v.
Proof.
  intros w w' k (_ & E & F). unfold local_value. rewrite <- E. split; [reflexivity|]. intros v. destruct (p_scopes p) as [|f ss]; [discriminate|]. destruct (nth_error (w_frames w) f) as [fr|] eqn:Ef; [|discriminate].
  intros G. apply nth_error_In in Ef. rewrite Forall_forall in F. specialize (F _ Ef). apply get_some_in in G. unfold clean_frame in F. rewrite Forall_forall in F. exact (F _ G).
Qed.
Lemma rel_exec_stmt : forall q s s', rel_state s s' -> (forall y, In y (line_names py q) -> used y) -> rel rel_out3 (exec_stmt py load inv p q s) (exec_stmt py load inv p q s').
Proof.
  intros q s s' R U. assert (Rw := rs_world _ _ R). assert (El := rel_instance _ _ p _ Rw u_local). assert (Es := rel_instance _ _ p _ Rw u_self).
  assert (Show : forall e (f : value -> value), (forall y, In y (source_names py e) -> used y) ->
    rel rel_out3 (rmap (fun vs => ([f (fst vs)], M_Exec.CNone, snd vs)) (show_value py s_world inv p e s)) (rmap (fun vs => ([f (fst vs)], M_Exec.CNone, snd vs)) (show_value py s_world inv p e s'))).
  { intros e f Ue. eapply rel_map; [now apply rel_show_value|]. intros a b [E1 R1]. rewrite E1. split; [reflexivity|exact R1]. }
  assert (Same : forall c, rel rel_out3 (Ok ([], c, s)) (Ok ([], c, s'))) by (intros c; split; [reflexivity|exact R]).
  assert (Main : forall t t' i, rel_state t t' ->
    rel rel_out3 (rbind (main_of py (w_heap (s_world t)) i) (fun c => rmap (fun vs => ([fst vs], M_Exec.CNone, snd vs)) (call_function py inv c [] t)))
                 (rbind (main_of py (w_heap (s_world t')) i) (fun c => rmap (fun vs => ([fst vs], M_Exec.CNone, snd vs)) (call_function py inv c [] t')))).
  { intros t t' i Rt. eapply rel_bind; [apply rel_main_of; exact (proj1 (rs_world _ _ Rt))|]. intros c c' [<- Cc]. eapply rel_map; [apply rel_call_function; [exact Cc|constructor|exact Rt]|].
    intros a b [E1 R1]. rewrite E1. split; [reflexivity|exact R1]. }
  destruct q; cbn [exec_stmt line_names] in *; try (cbn [rel]; reflexivity).
  - now apply rel_guarded.
  - rewrite (rel_translate _ _ p s0 Rw). now apply rel_guarded.
  - exact (Show e (fun v => v) U).
  - rewrite Es. destruct (instance py (s_world s') p (L "self")); cbn [rbind rel]; [|reflexivity]. exact (Show e escape U).
  - split; [reflexivity|exact R].
  - rewrite Es. destruct (instance py (s_world s') p (L "self")); cbn [rbind rel]; [|reflexivity].
    eapply rel_bind; [apply rel_lookup; [exact Rw|apply U; now left]|]. intros g g' [<- Cg]. destruct g as [[v|d b i ss]|i|t|i|i| | | |]; cbn [rel]; try reflexivity.
    eapply rel_bind; [apply (Inv (d, b, i, ss) []); [exact Cg|constructor|exact R]|]. intros r r' [E1 R1]. rewrite E1. destruct (collect (fst r')); cbn [rmap rel]; [|reflexivity].
    split; [reflexivity|]. cbn [snd]. apply rel_set_world; [exact R1|]. apply rel_set_name; [exact (rs_world _ _ R1)|exact Logic.I].
  - eapply rel_bind; [apply rel_lookup; [exact Rw|exact u_kj]|]. intros g g' [<- _]. destruct g; try reflexivity. apply Same.
  - rewrite El. destruct (instance py (s_world s') p (L "local")) as [i|]; cbn [rmap rel]; [|reflexivity]. split; [reflexivity|]. cbn [snd]. rewrite <- (proj1 (rs_with _ _ R i)).
    assert (Em : map (fun k => match local_value (s_world s) p k with Some v => v | None => val M_Exec.unit_value end) names =
                 map (fun k => match local_value (s_world s') p k with Some v => v | None => val M_Exec.unit_value end) names).
    { apply map_ext. intros k. now rewrite (proj1 (rel_local_value _ _ k Rw)). }
    rewrite <- Em. apply rel_with_with; [exact R|]. constructor; [|apply (rs_with _ _ R)]. apply Forall_map, Forall_forall. intros k _.
    assert (X := proj2 (rel_local_value _ _ k Rw)). destruct (local_value (s_world s) p k) as [v|]; [now apply X|exact Logic.I].
  - destruct (M_Exec.targets k) as [|x [|x2 xs]]; try reflexivity. destruct (M_Exec.is_name x); [|reflexivity]. eapply rel_map; [now apply rel_eval|]. intros g g' [<- Cg]. split; [reflexivity|].
    cbn [snd]. apply rel_set_world; [exact R|now apply rel_set_name].
  - rewrite El. destruct (instance py (s_world s') p (L "local")) as [i|]; cbn [rbind rel]; [|reflexivity]. destruct (rs_with _ _ R i) as [<- Cw]. destruct (s_with s i) as [|saved rest]; [reflexivity|].
    apply Forall_cons_iff in Cw. destruct Cw as [C1 C2]. cbv zeta. destruct (negb _); [reflexivity|]. destruct (Nat.eqb _ _); [|reflexivity]. split; [reflexivity|]. cbn [snd].
    apply rel_with_with; [|exact C2]. apply rel_set_world; [exact R|]. apply rel_set_names; [exact Rw|]. apply Forall_forall. intros [k u] I1. apply in_combine_r in I1. rewrite Forall_forall in C1. exact (C1 _ I1).
  - rewrite El. destruct (instance py (s_world s') p (L "local")) as [i|]; cbn [rbind rel]; [|reflexivity]. rewrite (rel_evalue _ _ p e Rw U). destruct (evalue py (s_world s') p e); cbn [rmap rel]; [|reflexivity].
    split; [reflexivity|]. cbn [snd]. rewrite <- (rs_switch _ _ R i). now apply rel_with_switch.
  - apply Same.
  - rewrite El. destruct (instance py (s_world s') p (L "local")) as [i|]; cbn [rbind rel]; [|reflexivity]. rewrite <- (rs_switch _ _ R i). destruct (s_switch s i) as [|v rest]; [reflexivity|].
    split; [reflexivity|]. now apply rel_with_switch.
  - eapply rel_map; [now apply rel_import_template|]. intros a b [R1 E1]. rewrite <- E1. split; [reflexivity|]. now apply rel_new_stacks.
  - eapply rel_bind; [now apply rel_import_template|]. intros a b [R1 E1]. rewrite <- E1. apply Main. now apply rel_new_stacks.
  - eapply rel_bind; [now apply rel_extend_template|]. intros a b [R1 E1]. rewrite <- E1. apply Main. now apply rel_new_stacks.
Qed.
Lemma rel_loop : forall body body' l, (forall s s', rel_state s s' -> rel rel_out (body s) (body' s')) -> Forall (Forall (fun kv => clean (snd kv))) l ->
  forall s s', rel_state s s' -> rel rel_out (loop p body l s) (loop p body' l s').
Proof.
  intros body body' l B F. induction F as [|r l Fr F IH]; intros s s' R; cbn [loop]; [split; [reflexivity|exact R]|].
  eapply rel_bind; [apply B; apply rel_set_world; [exact R|]; apply rel_set_names; [exact (rs_world _ _ R)|exact Fr]|]. intros a b [E1 R1].
  eapply rel_map; [apply IH; exact R1|]. intros a' b' [E2 R2]. split; [|exact R2]. cbn [fst]. now rewrite E1, E2.
Qed.
Lemma rel_exec_block : forall h code body body' c s s', (forall s s', rel_state s s' -> rel rel_out (body s) (body' s')) -> clean_code code -> rel_state s s' ->
  (forall y, In y (line_names py h) -> used y) -> rel rel_out3 (exec_block py p h code body c s) (exec_block py p h code body' c s').
Proof.
  intros h code body body' c s s' B Cc R U. assert (Rw := rs_world _ _ R). assert (El := rel_instance _ _ p _ Rw u_local). assert (Es := rel_instance _ _ p _ Rw u_self).
  assert (Same : forall c, rel rel_out3 (Ok ([], c, s)) (Ok ([], c, s'))) by (intros c1; split; [reflexivity|exact R]).
  assert (Runs : forall c1 : M_Exec.chain, rel rel_out3 (rmap (fun os => (fst os, c1, snd os)) (body s)) (rmap (fun os => (fst os, c1, snd os)) (body' s'))).
  { intros c1. eapply rel_map; [now apply B|]. intros a b [E1 R1]. rewrite E1. split; [reflexivity|exact R1]. }
  assert (Loop : forall l, Forall (Forall (fun kv => clean (snd kv))) l ->
    rel rel_out3 (rmap (fun os => (fst os, M_Exec.CFor, snd os)) (loop p body l s)) (rmap (fun os => (fst os, M_Exec.CFor, snd os)) (loop p body' l s'))).
  { intros l F. eapply rel_map; [now apply (rel_loop body body')|]. intros a b [E1 R1]. rewrite E1. split; [reflexivity|exact R1]. }
  assert (Chunks : forall x chunks, Forall (Forall (fun kv : str * bval => clean (snd kv))) (map (fun t => [(x, val (VStr t))]) chunks)).
  { intros x chunks. apply Forall_map, Forall_forall. intros t _. constructor; [exact Logic.I|constructor]. }
  destruct h; cbn [exec_block line_names] in *; cbv zeta; try (cbn [rel]; reflexivity).
  - split; [reflexivity|]. cbn [snd]. apply rel_set_world; [exact R|]. now apply rel_set_name.
  - rewrite Es. destruct (instance py (s_world s') p (L "self")); cbn [rbind rel]; [|reflexivity].
    eapply rel_bind; [apply rel_lookup; [exact Rw|apply U; now left]|]. intros g g' [<- _]. destruct (render_attrs _ mode) as [chunks|]; cbn [rbind rel]; [|reflexivity]. now apply Loop.
  - rewrite Es. destruct (instance py (s_world s') p (L "self")); cbn [rbind rel]; [|reflexivity]. rewrite (rel_attributes _ _ p e Rw U).
    destruct (attributes py (s_world s') p e) as [l|]; cbn [rbind rel]; [|reflexivity]. destruct (render_attrs _ mode) as [chunks|]; cbn [rbind rel]; [|reflexivity]. now apply Loop.
  - eapply rel_bind; [now apply rel_rounds|]. intros l l' [<- Cl]. now apply Loop.
  - rewrite (rel_condition _ _ p e Rw U). destruct (condition py (s_world s') p e) as [[|]|]; cbn [rbind]; [apply Runs|apply Same|reflexivity].
  - destruct c as [|[|]|]; try reflexivity; [apply Same|]. rewrite El. destruct (instance py (s_world s') p (L "local")) as [i|]; cbn [rbind rel]; [|reflexivity].
    rewrite (rel_evalue _ _ p e Rw U). destruct (evalue py (s_world s') p e) as [v|]; cbn [rbind rel]; [|reflexivity]. rewrite <- (rs_switch _ _ R i). destruct (s_switch s i) as [|x rest]; [reflexivity|].
    destruct (veq py v x); [apply Runs|apply Same].
  - destruct c as [|[|]|]; [reflexivity|apply Same|apply Runs|apply Runs].
  - split; [reflexivity|]. cbn [snd]. apply rel_set_world; [exact R|]. now apply rel_set_name.
Qed.
Lemma rel_execs_of : forall l, Forall (fun b => forall c s s', rel_state s s' -> (forall y, In y (mentioned py b) -> used y) -> rel rel_out3 (exec py load inv p b c s) (exec py load inv p b c s')) l ->
  clean_code l -> forall c s s', rel_state s s' -> rel rel_out3 (execs py load inv p l c s) (execs py load inv p l c s').
Proof.
  intros l F. induction F as [|b l Fb F IH]; intros C c s s' R; cbn [execs]; [split; [reflexivity|exact R]|].
  eapply rel_bind; [apply Fb; [exact R|]; intros y I1; apply (C b); [now left|exact I1]|]. intros [[o c1] s1] [[o' c1'] s1'] [E1 R1]. cbn [fst snd] in *. assert (o = o' /\ c1 = c1') as [<- <-] by (split; congruence).
  eapply rel_map; [apply IH; [|exact R1]; intros b' y I1; apply C; now right|]. intros [[o2 c2] s2] [[o2' c2'] s2'] [E2 R2]. cbn [fst snd] in *. assert (o2 = o2' /\ c2 = c2') as [<- <-] by (split; congruence).
  split; [reflexivity|exact R2].
Qed.
Lemma exec_bl : forall h body c s, exec py load inv p (Bl h body) c s =
  exec_block py p h body (fun s => rmap (fun r => (fst (fst r), snd r)) (execs py load inv p body M_Exec.CNone s)) c s.
Proof. reflexivity. Qed.
Lemma rel_exec : forall b c s s', rel_state s s' -> (forall y, In y (mentioned py b) -> used y) -> rel rel_out3 (exec py load inv p b c s) (exec py load inv p b c s').
Proof.
  intros b. induction b as [t g|q|h body F|lines] using blk_ind'; intros c s s' R U.
  - cbn [exec]. now apply rel_guarded.
  - cbn [exec]. now apply rel_exec_stmt.
  - rewrite !exec_bl. cbn [mentioned] in U.
    assert (C : clean_code body) by (intros b y I1 I2; apply U, in_or_app; right; apply in_flat_map; eauto).
    apply rel_exec_block; [|exact C|exact R|intros y I1; apply U, in_or_app; now left]. intros t t' Rt. eapply rel_map; [now apply rel_execs_of|]. intros a b [E1 R1]. rewrite E1. split; [reflexivity|exact R1].
  - cbn [exec]. eapply rel_map; [apply rel_run_block; [exact (rs_world _ _ R)|exact U]|]. intros a b [E1 R1]. rewrite E1. split; [reflexivity|]. now apply rel_set_world.
Qed.
Lemma rel_execs : forall l c s s', rel_state s s' -> clean_code l -> rel rel_out3 (execs py load inv p l c s) (execs py load inv p l c s').
Proof. intros l c s s' R C. apply rel_execs_of; [|exact C|exact R]. apply Forall_forall. intros b _. apply rel_exec. Qed.
End Level.

Lemma rel_invoke : forall depth c params s s', clean_callable c -> Forall (fun kv => clean (snd kv)) params -> rel_state s s' ->
  rel rel_out (invoke py load depth c params s) (invoke py load depth c params s').
Proof.
  induction depth as [|depth IH]; intros [[[d body] i] ss] params s s' C P R; cbn [invoke]; [reflexivity|]. destruct (rs_world _ _ R) as (Rh & Ef & F).
  eapply rel_map.
  - rewrite <- Ef. apply rel_execs; [exact IH| |exact C]. apply rel_set_world; [exact R|]. split; [exact Rh|]. split; [reflexivity|]. cbn [w_frames]. apply Forall_app. split; [exact F|].
    constructor; [exact P|constructor].
  - intros a b [E1 R1]. rewrite E1. split; [reflexivity|exact R1].
Qed.
Lemma rel_run_template : forall depth c d d', clean_class c -> rel_dict d d' -> run_template py load depth c d = run_template py load depth c d'.
Proof.
  intros depth c d d' C R. apply rel_eq. unfold run_template.
  assert (R0 : rel_heap [] []).
  { constructor; try reflexivity.
    - intros i. unfold M_Template.globals. destruct (nth_error [] i) eqn:E; [destruct i; discriminate|apply rel_nil].
    - intros i k U. unfold M_Template.attrs. destruct (nth_error [] i) eqn:E; [destruct i; discriminate|]. split; [reflexivity|discriminate].
    - intros i Hi. cbn [length] in Hi. lia.
    - intros [|i] x x' E; discriminate. }
  destruct (rel_new [] [] c (Given _ _ d) (Given _ _ d') R0 C R) as [R1 E1]. destruct (new _ _ [] c (Given _ _ d)) as [h i]. destruct (new _ _ [] c (Given _ _ d')) as [h' i']. cbn [fst snd] in *. subst i'.
  eapply rel_bind; [now apply rel_main_of|]. intros f f' [<- Cf]. eapply rel_map.
  - apply (rel_call_function _ (rel_invoke depth)); [exact Cf|constructor|]. constructor; cbn [s_world s_with s_switch].
    + split; [exact R1|]. split; [reflexivity|constructor].
    + intros j. split; [reflexivity|constructor].
    + reflexivity.
  - intros a b [E2 _]. now rewrite E2.
Qed.
End Unnamed.

(** ** Files *)
Lemma objects_values : forall (P : bval -> Prop) l, (forall v, P (val v)) -> Forall (fun kv => P (snd kv)) (objects l).
Proof. intros P l H. unfold objects. apply Forall_map, Forall_forall. intros kv _. apply H. Qed.
Lemma class_functions_in : forall l fs, class_functions l = Some fs -> forall k d body, In (k, (d, body)) fs -> In (Bl (PDef d) body) l.
Proof.
  assert (X : forall n l fs, length l <= n -> class_functions l = Some fs -> forall k d body, In (k, (d, body)) fs -> In (Bl (PDef d) body) l).
  { induction n as [|n IH]; intros l fs Hl E k d body I1.
    - destruct l; [|cbn [length] in Hl; lia]. cbn [class_functions] in E. assert (fs = []) as -> by congruence. destruct I1.
    - destruct l as [|[t g|q|h b|ls] l]; cbn [class_functions] in E; try discriminate; [assert (fs = []) as -> by congruence; destruct I1|]. destruct q; try discriminate.
      destruct l as [|[t g|q|h b|ls] l]; try discriminate. destruct h; try discriminate. destruct (class_functions l) as [fs'|] eqn:Ef; cbn [option_map] in E; [|discriminate].
      assert (fs = (fun_name decl, (decl, b)) :: fs') as -> by congruence. destruct I1 as [E1|I1].
      + assert (decl = d /\ b = body) as [-> ->] by (split; congruence). right. now left.
      + right. right. cbn [length] in Hl. apply (IH l fs' ltac:(lia) Ef k d body I1). }
  intros l fs. exact (X (length l) l fs (le_n _)).
Qed.
Lemma class_clean : forall py (used : str -> Prop) f c, mentions_only py used f -> class_of f = Ok c -> clean_class py used c.
Proof.
  intros py used [[t given] module] c M E. unfold class_of in E. destruct (M_Exec.parses _); [|discriminate]. unfold template_class in E.
  destruct (class_functions (programs (defs t))) as [fs|] eqn:Ef; cbn [option_map] in E; [|discriminate]. assert (c = from_ir _ _ (class_methods fs) (objects given) (objects module)) as -> by congruence.
  unfold from_ir. split; cbn [methods base_globals].
  - apply Forall_forall. intros [k [d body]] I1. cbn [snd]. unfold class_methods in I1. apply (Permutation_in _ (sort_perm _ _)) in I1.
    assert (X : forall (l : list (str * (str * bcode))) d0 kf, In kf (fold_left (fun d kf => set (fst kf) (snd kf) d) l d0) -> In kf l \/ In kf d0).
    { intros l. induction l as [|[k1 v1] l IH]; intros d0 kf I2; cbn [fold_left] in I2; [now right|]. apply IH in I2. destruct I2 as [I2|I2]; [left; now right|]. cbn [fst snd] in I2.
      assert (Y : forall d1, In kf (set k1 v1 d1) -> kf = (k1, v1) \/ In kf d1).
      { intros d1. induction d1 as [|[k2 v2] d1 IHd]; cbn [set]; [intros [<-|[]]; now left|]. destruct (seqb k1 k2); intros [<-|I3]; auto; [right; now right|right; now left|]. destruct (IHd I3); auto. right. now right. }
      destruct (Y d0 I2) as [->|I3]; [left; now left|now right]. }
    apply X in I1. destruct I1 as [I1|[]]. apply (class_functions_in _ _ Ef) in I1. intros b x I2 I3. apply (M (Bl (PDef d) body) x I1). cbn [mentioned]. apply in_or_app. right. apply in_flat_map. eauto.
  - assert (X : forall (d' d : dict (fobj bcode) (str * bcode)), Forall (fun kv => clean py used (snd kv)) d -> Forall (fun kv => clean py used (snd kv)) d' -> Forall (fun kv => clean py used (snd kv)) (update _ _ d d')).
    { unfold update. induction d' as [|[k v] d' IH]; intros d F F'; cbn [fold_left]; [exact F|]. apply Forall_cons_iff in F'. destruct F' as [F1 F2]. apply IH; [|exact F2]. cbn [fst snd]. now apply clean_set. }
    apply X; apply objects_values; intros v; exact Logic.I.
Qed.
Theorem unnamed : forall py (used : str -> Prop) files depth f c c',
  (forall k, In k run_time_names -> used k) -> (forall k, In k asks_by_name -> ~ used k) \/ (forall k, used k) ->
  mentions_only py used f -> (forall fragment name g, files fragment name = Ok g -> mentions_only py used g) ->
  NoDup (map fst c) -> NoDup (map fst c') -> same_on used c c' -> run_file py files depth f c = run_file py files depth f c'.
Proof.
  intros py used files depth f c c' Rn Ask M Mf D D' S. unfold run_file. destruct (class_of f) as [cl|] eqn:E; cbn [rbind]; [|reflexivity].
  apply (rel_run_template py used Rn Ask).
  - intros fragment name cl' El. destruct (files fragment name) as [g|] eqn:Eg; cbn [rbind] in El; [|discriminate]. exact (class_clean py used g cl' (Mf _ _ _ Eg) El).
  - exact (class_clean py used f cl M E).
  - unfold objects. split; [|split]; [unfold a_dict; rewrite keys_map; exact D|unfold a_dict; rewrite keys_map; exact D'|]. intros k U. rewrite !get_map. rewrite (S k U). split; [reflexivity|].
    intros v Ev. destruct (get k c'); cbn [option_map] in Ev; [|discriminate]. assert (v = val v0) as -> by congruence. exact Logic.I.
Qed.
