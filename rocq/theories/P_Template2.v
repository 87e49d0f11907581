(** * What [_extend] does to the globals *)

From Coq Require Import Ascii String List NArith ZArith Bool Lia Arith.
From Verif Require Import PyStr PyStrLemmas M_Template S_Template P_Template.
Import ListNotations.
Open Scope list_scope.

Section Names.
Variable obj : Type.
Variable fn : Type.
Notation gval := (gval obj fn).
Notation dict := (dict obj fn).
Notation cls := (cls obj fn).
Notation heap := (heap obj fn).
Notation update := (update obj fn).
Notation globals := (globals obj fn).
Notation attrs := (attrs obj fn).
Notation new := (new obj fn).
Notation is_fun := (is_fun obj fn).
Notation with_globals := (with_globals obj fn).
Notation with_attrs := (with_attrs obj fn).
Notation inherit := (inherit obj fn).

(** The functions of a dictionary, except for the main one. *)
Definition fun_at (k : str) (d : dict) : option gval :=
  if seqb k (L "__main__") then None else match get k d with Some v => if is_fun v then Some v else None | None => None end.
Lemma get_filter_key : forall k (p : str * gval -> bool) (d : dict), a_dict d ->
  get k (filter p d) = match get k d with Some v => if p (k, v) then Some v else None | None => None end.
Proof.
  intros k p. induction d as [|[k2 v2] d IH]; intros D; [reflexivity|]. inversion D as [|? ? N1 N2]; subst. specialize (IH N2). cbn [filter get].
  destruct (seqb_spec k k2) as [->|Ne].
  - destruct (p (k2, v2)) eqn:E; cbn [get]; [now rewrite seqb_refl|]. rewrite IH. apply (get_none _ k2 d) in N1. now rewrite N1.
  - destruct (p (k2, v2)) eqn:E; cbn [get]; [|exact IH]. destruct (seqb_spec k k2); [congruence|exact IH].
Qed.
Lemma get_overrides : forall k d, a_dict d -> get k (overrides obj fn d) = fun_at k d.
Proof.
  intros k d D. unfold overrides, fun_at. rewrite get_filter_key by assumption. destruct (get k d) as [v|]; cbn [fst snd]; [|now destruct (seqb k (L "__main__"))].
  destruct (seqb k (L "__main__")); reflexivity.
Qed.
Lemma overrides_dict : forall d, a_dict d -> a_dict (overrides obj fn d).
Proof.
  intros d D. unfold overrides, a_dict, keys in *. induction d as [|[k v] d IH]; [constructor|]. inversion D as [|? ? N1 N2]; subst. cbn [filter].
  destruct (_ && _); [|auto]. cbn [map fst]. constructor; [|auto]. intros I1. apply N1. apply in_map_iff in I1 as (x & E & I1). apply filter_In in I1 as [I1 _].
  apply in_map_iff. now exists x.
Qed.

(** ** Inherited functions *)
Definition tramp_at (i : nat) (k : str) (d : dict) : option (tplfun fn) :=
  match fun_at k d with Some _ => if smem k template_attributes then None else Some (TplFunc fn (Trampoline fn k) i) | None => None end.
Definition or_else {A : Type} (a b : option A) : option A := match a with Some v => Some v | None => b end.
Lemma has_get : forall A k (d : list (str * A)), has k d = match get k d with Some _ => true | None => false end.
Proof. reflexivity. Qed.
Lemma inherit_one : forall i h k v, i < length h ->
  let h' := inherit i h (k, v) in
  same_shape obj fn h h' /\
  (forall j, j <> i -> globals h' j = globals h j /\ attrs h' j = attrs h j) /\
  (a_dict (globals h i) -> a_dict (globals h' i)) /\
  (forall k', get k' (globals h' i) = or_else (get k' (globals h i)) (fun_at k' [(k, v)])) /\
  (forall k', get k' (attrs h' i) = or_else (get k' (attrs h i)) (tramp_at i k' [(k, v)])).
Proof.
  intros i h k v Hi. unfold M_Template.inherit, fun_at, tramp_at, or_else. cbv zeta.
  assert (Fk : forall k', get k' [(k, v)] = if seqb k' k then Some v else None) by reflexivity.
  destruct (seqb k (L "__main__") || negb (is_fun v)) eqn:E0.
  - split; [apply shape_refl|]. split; [auto|]. split; [auto|]. split; intros k'; unfold fun_at; rewrite Fk.
    + destruct (get k' (globals h i)); [reflexivity|]. destruct (seqb_spec k' (L "__main__")); [reflexivity|]. destruct (seqb_spec k' k) as [->|]; [|reflexivity].
      destruct (seqb_spec k (L "__main__")); [congruence|]. cbn [orb] in E0. destruct (is_fun v); [discriminate|reflexivity].
    + destruct (get k' (attrs h i)); [reflexivity|]. destruct (seqb_spec k' (L "__main__")); [reflexivity|]. destruct (seqb_spec k' k) as [->|]; [|reflexivity].
      destruct (seqb_spec k (L "__main__")); [congruence|]. cbn [orb] in E0. destruct (is_fun v); [discriminate|reflexivity].
  - apply orb_false_iff in E0 as [Em Ef]. apply negb_false_iff in Ef.
    match goal with |- context [hasattr obj fn ?hh i k] => set (h1 := hh) end.
    assert (H1 : same_shape obj fn h h1 /\ (forall j, attrs h1 j = attrs h j) /\ (forall j, j <> i -> globals h1 j = globals h j) /\
       (a_dict (globals h i) -> a_dict (globals h1 i)) /\
       forall k', get k' (globals h1 i) = or_else (get k' (globals h i)) (fun_at k' [(k, v)])).
    { unfold h1. rewrite has_get. destruct (get k (globals h i)) as [v0|] eqn:Eg.
      - split; [apply shape_refl|]. split; [auto|]. split; [auto|]. split; [auto|]. intros k'. unfold or_else, fun_at. rewrite Fk. destruct (get k' (globals h i)) eqn:Ek; [reflexivity|].
        destruct (seqb k' (L "__main__")); [reflexivity|]. destruct (seqb_spec k' k); [congruence|reflexivity].
      - split; [apply shape_with|]. split; [intros; apply attrs_with|]. split; [|split].
        + intros j Ne. rewrite globals_with by assumption. destruct (Nat.eqb_spec i j); [congruence|reflexivity].
        + intros D. rewrite globals_with by assumption. rewrite Nat.eqb_refl. now apply set_dict.
        + intros k'. rewrite globals_with by assumption. rewrite Nat.eqb_refl, get_set. unfold or_else, fun_at. rewrite Fk.
          destruct (seqb_spec k' k) as [->|Ne]; [rewrite Eg, Em, Ef; reflexivity|]. destruct (get k' (globals h i)); [reflexivity|]. now destruct (seqb k' (L "__main__")). }
    clearbody h1. destruct H1 as (Sh & A1 & G1 & D1 & K1). assert (L1 : i < length h1) by (destruct Sh as [-> _]; exact Hi).
    unfold hasattr. rewrite has_get, A1. destruct (get k (attrs h i)) as [f0|] eqn:Ea; cbn [orb].
    + split; [exact Sh|]. split; [auto|]. split; [exact D1|]. split; [exact K1|]. intros k'. rewrite A1. unfold fun_at. rewrite Fk. destruct (get k' (attrs h i)) eqn:Ek; [reflexivity|].
      destruct (seqb k' (L "__main__")); [reflexivity|]. destruct (seqb_spec k' k); [congruence|reflexivity].
    + destruct (smem k template_attributes) eqn:Et.
      * split; [exact Sh|]. split; [auto|]. split; [exact D1|]. split; [exact K1|]. intros k'. rewrite A1. unfold fun_at. rewrite Fk. destruct (get k' (attrs h i)) eqn:Ek; [reflexivity|].
        destruct (seqb k' (L "__main__")); [reflexivity|]. destruct (seqb_spec k' k) as [->|]; [|reflexivity]. rewrite Ef, Et. reflexivity.
      * split; [eapply shape_trans; [exact Sh|apply shape_attrs]|]. split; [|split; [|split]].
        -- intros j Ne. rewrite globals_attrs, attrs_set by assumption. destruct (Nat.eqb_spec i j); [congruence|auto].
        -- rewrite globals_attrs. exact D1.
        -- intros k'. rewrite globals_attrs. apply K1.
        -- intros k'. rewrite attrs_set by assumption. rewrite Nat.eqb_refl, get_set. unfold fun_at. rewrite Fk.
           destruct (seqb_spec k' k) as [->|Ne]; [rewrite Ea, Em, Ef, Et; reflexivity|]. destruct (get k' (attrs h i)); [reflexivity|]. now destruct (seqb k' (L "__main__")).
Qed.
Lemma fun_at_cons : forall k k0 v (d : dict), ~ In k0 (keys d) -> fun_at k ((k0, v) :: d) = or_else (fun_at k [(k0, v)]) (fun_at k d).
Proof.
  intros k k0 v d N0. unfold fun_at, or_else. cbn [get]. destruct (seqb k (L "__main__")); [reflexivity|]. destruct (seqb_spec k k0) as [->|Ne]; [|reflexivity].
  apply get_none in N0. rewrite N0. now destruct (is_fun v).
Qed.
Lemma or_assoc : forall A (a b c : option A), or_else (or_else a b) c = or_else a (or_else b c).
Proof. intros A [|] b c; reflexivity. Qed.
Lemma inherit_all : forall i d h, i < length h -> a_dict d ->
  let h' := fold_left (inherit i) d h in
  same_shape obj fn h h' /\
  (forall j, j <> i -> globals h' j = globals h j /\ attrs h' j = attrs h j) /\
  (a_dict (globals h i) -> a_dict (globals h' i)) /\
  (forall k', get k' (globals h' i) = or_else (get k' (globals h i)) (fun_at k' d)) /\
  (forall k', get k' (attrs h' i) = or_else (get k' (attrs h i)) (tramp_at i k' d)).
Proof.
  intros i d. induction d as [|[k v] d IH]; intros h Hi D; cbv zeta.
  - cbn [fold_left]. split; [apply shape_refl|]. split; [auto|]. split; [auto|]. unfold tramp_at, fun_at. cbn [get].
    split; intros k'; unfold or_else; destruct (seqb k' (L "__main__")); match goal with |- ?x = _ => destruct x; reflexivity end.
  - inversion D as [|? ? N1 N2]; subst. cbn [fold_left].
    destruct (inherit_one i h k v Hi) as (S1 & O1 & D1 & G1 & A1). cbv zeta in *. set (h1 := inherit i h (k, v)) in *. clearbody h1.
    assert (L1 : i < length h1) by (destruct S1 as [-> _]; exact Hi).
    destruct (IH h1 L1 N2) as (S2 & O2 & D2 & G2 & A2). set (h2 := fold_left (inherit i) d h1) in *. clearbody h2.
    split; [eapply shape_trans; eassumption|]. split; [|split; [auto|split]].
    + intros j Ne. destruct (O1 j Ne) as [E1 E2]. destruct (O2 j Ne) as [E3 E4]. split; congruence.
    + intros k'. rewrite G2, G1, or_assoc. now rewrite <- fun_at_cons by exact N1.
    + intros k'. rewrite A2, A1, or_assoc. f_equal. unfold tramp_at. rewrite (fun_at_cons k' k v d) by exact N1. unfold or_else. destruct (fun_at k' [(k, v)]); [|reflexivity].
      destruct (smem k' template_attributes); [|reflexivity]. now destruct (fun_at k' d).
Qed.

(** ** [_extend] *)
Definition parent_globals (h : heap) (i : nat) (x : inst obj fn) (parent : cls) (k : str) : option gval :=
  or_else (fun_at k (globals h i)) (get k (init_globals obj fn (length h) parent (context_of obj fn h (i_context _ _ x)))).
Definition fun_of (k : str) (v : option gval) : option gval :=
  if seqb k (L "__main__") then None else match v with Some v => if is_fun v then Some v else None | None => None end.
Theorem extend_spec : forall h i x parent s, nth_error h i = Some x -> a_dict (globals h i) -> get (L "self") (globals h i) = Some s ->
  exists h', extend obj fn h i parent = Ok (h', length h) /\ length h' = S (length h) /\
    (forall j y, nth_error h j = Some y -> exists y', nth_error h' j = Some y' /\ i_class _ _ y' = i_class _ _ y /\ i_context _ _ y' = i_context _ _ y) /\
    (exists y, nth_error h' (length h) = Some y /\ i_class _ _ y = parent /\ i_context _ _ y = i_context _ _ x) /\
    (forall j, j <> i -> j <> length h -> globals h' j = globals h j /\ attrs h' j = attrs h j) /\
    a_dict (globals h' i) /\ a_dict (globals h' (length h)) /\
    (forall k, get k (globals h' (length h)) =
       if seqb k (L "self") then Some s else if seqb k (L "local") then Some (GInst obj fn (length h)) else
       if seqb k (L "child") then Some (GInst obj fn i) else parent_globals h i x parent k) /\
    (forall k, get k (globals h' i) =
       if seqb k (L "local") then Some (GInst obj fn i) else if seqb k (L "parent") then Some (GInst obj fn (length h)) else
       or_else (get k (globals h i)) (fun_of k (parent_globals h i x parent k))) /\
    attrs h' (length h) = bound fn (length h) (methods _ _ parent) /\
    (forall k, get k (attrs h' i) = or_else (get k (attrs h i))
       (match fun_of k (parent_globals h i x parent k) with
        | Some _ => if smem k template_attributes then None else Some (TplFunc fn (Trampoline fn k) i) | None => None end)).
Proof.
  intros h i x parent s Ex Di Es. assert (Hi : i < length h) by (apply nth_error_Some; congruence).
  unfold extend. rewrite Ex. destruct (new h parent (i_context _ _ x)) as [h1 p] eqn:En.
  assert (p = length h) by (unfold M_Template.new in En; congruence). subst p. set (p := length h) in *.
  assert (Eh1 : h1 = fst (new h parent (i_context _ _ x))) by (rewrite En; reflexivity).
  assert (L1 : length h1 = S p) by (rewrite Eh1; unfold M_Template.new; cbn [fst]; rewrite app_length; cbn [length]; unfold p; lia).
  assert (G1 : forall j, globals h1 j = if Nat.eqb j p then init_globals obj fn j parent (context_of obj fn h (i_context _ _ x)) else globals h j) by (intros j; rewrite Eh1; apply globals_new).
  assert (A1 : forall j, attrs h1 j = if Nat.eqb j p then bound fn j (methods _ _ parent) else attrs h j) by (intros j; rewrite Eh1; apply attrs_new).
  assert (S1 : forall j y, nth_error h j = Some y -> nth_error h1 j = Some y).
  { intros j y E. rewrite Eh1. unfold M_Template.new. cbn [fst]. rewrite nth_error_app1; [exact E|]. apply nth_error_Some. congruence. }
  assert (P1 : exists y, nth_error h1 p = Some y /\ i_class _ _ y = parent /\ i_context _ _ y = i_context _ _ x).
  { rewrite Eh1. unfold M_Template.new. cbn [fst]. rewrite nth_error_app2 by (unfold p; lia). unfold p. rewrite Nat.sub_diag. eexists. split; [reflexivity|]. now split. }
  clear Eh1 En. assert (Nip : i <> p) by (unfold p; lia).
  assert (Gi : globals h1 i = globals h i) by (rewrite G1; destruct (Nat.eqb_spec i p); [congruence|reflexivity]).
  assert (Gp : globals h1 p = init_globals obj fn p parent (context_of obj fn h (i_context _ _ x))) by (rewrite G1, Nat.eqb_refl; reflexivity).
  set (h2 := with_globals h1 p (update (globals h1 p) (overrides obj fn (globals h1 i)))).
  assert (L2 : length h2 = S p) by (unfold h2; rewrite length_with; exact L1).
  assert (S2 : same_shape obj fn h1 h2) by apply shape_with.
  assert (G2 : forall j, globals h2 j = if Nat.eqb p j then update (globals h1 p) (overrides obj fn (globals h1 i)) else globals h1 j) by (intros j; apply globals_with; lia).
  assert (A2 : forall j, attrs h2 j = attrs h1 j) by (intros; apply attrs_with). clearbody h2.
  assert (Dp : a_dict (globals h2 p)) by (rewrite G2, Nat.eqb_refl, Gp; apply update_dict, init_dict).
  assert (Kp : forall k, get k (globals h2 p) = parent_globals h i x parent k).
  { intros k. rewrite G2, Nat.eqb_refl, Gp, Gi. rewrite get_update by now apply overrides_dict. now rewrite get_overrides. }
  assert (Gi2 : globals h2 i = globals h i) by (rewrite G2; destruct (Nat.eqb_spec p i); [congruence|exact Gi]).
  destruct (inherit_all i (globals h2 p) h2) as (S3 & O3 & D3 & G3 & A3); [lia|exact Dp|].
  set (h3 := fold_left (inherit i) (globals h2 p) h2) in *. clearbody h3. cbv zeta in *.
  assert (L3 : length h3 = S p) by (destruct S3 as [-> _]; exact L2).
  set (h4 := with_globals h3 p (set (L "child") (GInst obj fn i) (globals h3 p))).
  assert (L4 : length h4 = S p) by (unfold h4; rewrite length_with; exact L3).
  assert (S4 : same_shape obj fn h3 h4) by apply shape_with.
  assert (G4 : forall j, globals h4 j = if Nat.eqb p j then set (L "child") (GInst obj fn i) (globals h3 p) else globals h3 j) by (intros j; apply globals_with; lia).
  assert (A4 : forall j, attrs h4 j = attrs h3 j) by (intros; apply attrs_with). clearbody h4.
  set (h5 := with_globals h4 p (set (L "local") (GInst obj fn p) (globals h4 p))).
  assert (L5 : length h5 = S p) by (unfold h5; rewrite length_with; exact L4).
  assert (S5 : same_shape obj fn h4 h5) by apply shape_with.
  assert (G5 : forall j, globals h5 j = if Nat.eqb p j then set (L "local") (GInst obj fn p) (globals h4 p) else globals h4 j) by (intros j; apply globals_with; lia).
  assert (A5 : forall j, attrs h5 j = attrs h4 j) by (intros; apply attrs_with). clearbody h5.
  assert (Es5 : get (L "self") (globals h5 i) = Some s).
  { rewrite (G5 i), (G4 i). destruct (Nat.eqb_spec p i); [congruence|]. rewrite G3, Gi2, Es. reflexivity. }
  rewrite Es5. set (h6 := with_globals h5 p (set (L "self") s (globals h5 p))).
  assert (L6 : length h6 = S p) by (unfold h6; rewrite length_with; exact L5).
  assert (S6 : same_shape obj fn h5 h6) by apply shape_with.
  assert (G6 : forall j, globals h6 j = if Nat.eqb p j then set (L "self") s (globals h5 p) else globals h5 j) by (intros j; apply globals_with; lia).
  assert (A6 : forall j, attrs h6 j = attrs h5 j) by (intros; apply attrs_with). clearbody h6.
  set (h7 := with_globals h6 i (set (L "parent") (GInst obj fn p) (globals h6 i))).
  assert (L7 : length h7 = S p) by (unfold h7; rewrite length_with; exact L6).
  assert (S7 : same_shape obj fn h6 h7) by apply shape_with.
  assert (G7 : forall j, globals h7 j = if Nat.eqb i j then set (L "parent") (GInst obj fn p) (globals h6 i) else globals h6 j) by (intros j; apply globals_with; lia).
  assert (A7 : forall j, attrs h7 j = attrs h6 j) by (intros; apply attrs_with). clearbody h7.
  set (h8 := with_globals h7 i (set (L "local") (GInst obj fn i) (globals h7 i))).
  assert (L8 : length h8 = S p) by (unfold h8; rewrite length_with; exact L7).
  assert (S8 : same_shape obj fn h7 h8) by apply shape_with.
  assert (G8 : forall j, globals h8 j = if Nat.eqb i j then set (L "local") (GInst obj fn i) (globals h7 i) else globals h7 j) by (intros j; apply globals_with; lia).
  assert (A8 : forall j, attrs h8 j = attrs h7 j) by (intros; apply attrs_with). clearbody h8.
  assert (Sh : same_shape obj fn h1 h8) by (repeat (eapply shape_trans; [eassumption|]); apply shape_refl).
  assert (Ga : globals h8 p = set (L "self") s (set (L "local") (GInst obj fn p) (set (L "child") (GInst obj fn i) (globals h2 p)))).
  { rewrite (G8 p), (G7 p). destruct (Nat.eqb_spec i p); [congruence|]. rewrite (G6 p), Nat.eqb_refl, (G5 p), Nat.eqb_refl, (G4 p), Nat.eqb_refl. now rewrite (proj1 (O3 p (not_eq_sym Nip))). }
  assert (Gb : globals h8 i = set (L "local") (GInst obj fn i) (set (L "parent") (GInst obj fn p) (globals h3 i))).
  { rewrite (G8 i), Nat.eqb_refl, (G7 i), Nat.eqb_refl, (G6 i), (G5 i), (G4 i). destruct (Nat.eqb_spec p i); [congruence|reflexivity]. }
  exists h8. split; [reflexivity|]. split; [exact L8|]. split; [|split; [|split; [|split; [|split; [|split; [|split; [|split]]]]]]].
  - intros j y E. destruct (proj2 Sh j y (S1 j y E)) as (y' & E' & X). now exists y'.
  - destruct P1 as (y & Ey & C1 & C2). destruct (proj2 Sh p y Ey) as (y' & E' & X1 & X2). exists y'. repeat split; congruence.
  - intros j Ni Np. rewrite (G8 j), (G7 j), (G6 j), (G5 j), (G4 j). destruct (Nat.eqb_spec i j); [congruence|]. destruct (Nat.eqb_spec p j); [congruence|].
    destruct (O3 j Ni) as [E1 E2]. rewrite A8, A7, A6, A5, A4, E1, E2, A2, A1, (G2 j), (G1 j). destruct (Nat.eqb_spec p j); [congruence|]. destruct (Nat.eqb_spec j p); [congruence|]. now split.
  - rewrite Gb. apply set_dict, set_dict, D3. now rewrite Gi2.
  - rewrite Ga. now apply set_dict, set_dict, set_dict.
  - intros k. rewrite Ga, !get_set, Kp. reflexivity.
  - intros k. rewrite Gb, !get_set, G3, Gi2. unfold fun_of, fun_at. now rewrite Kp.
  - rewrite A8, A7, A6, A5, A4. rewrite (proj2 (O3 p (not_eq_sym Nip))), A2, A1, Nat.eqb_refl. reflexivity.
  - intros k. rewrite A8, A7, A6, A5, A4, A3, A2, A1. destruct (Nat.eqb_spec i p); [congruence|]. f_equal. unfold tramp_at, fun_of, fun_at. now rewrite Kp.
Qed.
End Names.
