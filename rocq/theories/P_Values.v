(** * Proofs about escaping, attributes and flattening *)

From Coq Require Import Ascii String List NArith ZArith Bool Lia Permutation Sorted.
From Verif Require Import PyStr PyStrLemmas M_Values S_Values.
Import ListNotations.
Open Scope list_scope.

(** ** Induction on nested values *)

Section value_induction.
  Variable P : value -> Prop.
  Hypothesis HNone : P VNone.
  Hypothesis HBool : forall b, P (VBool b).
  Hypothesis HInt : forall z, P (VInt z).
  Hypothesis HStr : forall s, P (VStr s).
  Hypothesis HFlat : forall items, Forall P items -> P (VFlat items).
  Hypothesis HHtml : forall h s, P (VHtml h s).
  Hypothesis HObj : forall s, P (VObj s).
  Fixpoint value_ind' (v : value) : P v :=
    match v with
    | VNone => HNone
    | VBool b => HBool b
    | VInt z => HInt z
    | VStr s => HStr s
    | VFlat items =>
        HFlat items
          ((fix go (l : list value) : Forall P l :=
              match l with
              | [] => Forall_nil P
              | x :: l' => Forall_cons x (value_ind' x) (go l')
              end) items)
    | VHtml h s => HHtml h s
    | VObj s => HObj s
    end.
End value_induction.

(** ** Escaping *)

Definition enc (c : char) : str :=
  if N.eqb c c_amp then L "&amp;"
  else if N.eqb c c_lt then L "&lt;"
  else if N.eqb c c_gt then L "&gt;"
  else if N.eqb c c_dq then L "&quot;"
  else [c].

Definition special (c : char) : bool :=
  N.eqb c c_amp || N.eqb c c_lt || N.eqb c c_gt || N.eqb c c_dq.

Lemma flat_map_flat_map : forall A B C (f : B -> list C) (g : A -> list B) l,
  flat_map f (flat_map g l) = flat_map (fun x => flat_map f (g x)) l.
Proof. induction l; simpl; auto. rewrite flat_map_app, IHl; auto. Qed.

Lemma flat_map_ext' : forall A B (f g : A -> list B) l,
  (forall x, f x = g x) -> flat_map f l = flat_map g l.
Proof. intros; induction l; simpl; auto. rewrite H, IHl; auto. Qed.


Lemma enc_plain : forall c, special c = false -> enc c = [c].
Proof.
  unfold special, enc; intros c H. apply orb_false_iff in H; destruct H as (H & H4).
  apply orb_false_iff in H; destruct H as (H & H3). apply orb_false_iff in H; destruct H as (H1 & H2).
  now rewrite H1, H2, H3, H4.
Qed.

Lemma escape_str_enc : forall s, escape_str s = flat_map enc s.
Proof.
  intros s; unfold escape_str. destruct (needs_escape s) eqn:N.
  - rewrite !replace_single, !flat_map_flat_map. apply flat_map_ext'; intros c.
    unfold enc.
    destruct (N.eqb_spec c c_amp); [subst; reflexivity|]. simpl.
    destruct (N.eqb_spec c c_lt); [subst; reflexivity|]. simpl.
    destruct (N.eqb_spec c c_gt); [subst; reflexivity|]. simpl.
    destruct (N.eqb_spec c c_dq); [subst; reflexivity|]. reflexivity.
  - induction s as [|c s IH]; simpl in *; auto.
    apply orb_false_iff in N; destruct N as (N1 & N2).
    rewrite enc_plain by exact N1. simpl. now rewrite <- IH.
Qed.

Lemma escape_str_app : forall a b, escape_str (a ++ b) = escape_str a ++ escape_str b.
Proof. intros; rewrite !escape_str_enc; apply flat_map_app. Qed.

Lemma escape_str_id : forall s, (forall c, In c s -> special c = false) -> escape_str s = s.
Proof.
  intros s H; rewrite escape_str_enc. induction s as [|c s IH]; simpl; auto.
  rewrite enc_plain by (apply H; simpl; auto). simpl; f_equal. apply IH; intros; apply H; simpl; auto.
Qed.

Lemma find_ref_amp : forall t, find_reference (L "amp;" ++ t) references = Some (L "amp;", c_amp).
Proof. reflexivity. Qed.
Lemma find_ref_lt : forall t, find_reference (L "lt;" ++ t) references = Some (L "lt;", c_lt).
Proof. reflexivity. Qed.
Lemma find_ref_gt : forall t, find_reference (L "gt;" ++ t) references = Some (L "gt;", c_gt).
Proof. reflexivity. Qed.
Lemma find_ref_quot : forall t, find_reference (L "quot;" ++ t) references = Some (L "quot;", c_dq).
Proof. reflexivity. Qed.

Lemma decode_escape : forall s t, decode (escape_str s ++ t) = s ++ decode t.
Proof.
  intros s t; rewrite escape_str_enc; unfold decode.
  induction s as [|c s IH]; auto.
  cbn [flat_map]. rewrite <- app_assoc. unfold enc at 1.
  destruct (N.eqb_spec c c_amp); [subst|].
  { change (c_amp :: decode_skip 0 (flat_map enc s ++ t) = (c_amp :: s) ++ decode_skip 0 t).
    simpl. now rewrite IH. }
  destruct (N.eqb_spec c c_lt); [subst|].
  { change (c_lt :: decode_skip 0 (flat_map enc s ++ t) = (c_lt :: s) ++ decode_skip 0 t).
    simpl. now rewrite IH. }
  destruct (N.eqb_spec c c_gt); [subst|].
  { change (c_gt :: decode_skip 0 (flat_map enc s ++ t) = (c_gt :: s) ++ decode_skip 0 t).
    simpl. now rewrite IH. }
  destruct (N.eqb_spec c c_dq); [subst|].
  { change (c_dq :: decode_skip 0 (flat_map enc s ++ t) = (c_dq :: s) ++ decode_skip 0 t).
    simpl. now rewrite IH. }
  cbn [app decode_skip]. destruct (N.eqb_spec c c_amp); [congruence|]. now rewrite IH.
Qed.

Lemma decode_escape_str : forall s, decode (escape_str s) = s.
Proof. intros s. rewrite <- (app_nil_r (escape_str s)), decode_escape; apply app_nil_r. Qed.

Lemma enc_no : forall c d, In d (enc c) -> d <> c_lt /\ d <> c_gt /\ d <> c_dq.
Proof.
  intros c d. unfold enc.
  destruct (N.eqb_spec c c_amp); [|destruct (N.eqb_spec c c_lt); [|destruct (N.eqb_spec c c_gt);
    [|destruct (N.eqb_spec c c_dq)]]]; cbn; intros H; repeat destruct H as [H|H]; subst;
    try contradiction; repeat split; try discriminate; auto.
Qed.

Lemma app_eq_cases : forall (A : Type) (a b c d : list A), a ++ b = c ++ d ->
  (exists m, a = c ++ m /\ d = m ++ b) \/ (exists m, c = a ++ m /\ b = m ++ d).
Proof.
  induction a as [|x a IH]; intros b c d H; simpl in *.
  - right; exists c; auto.
  - destruct c as [|y c]; simpl in *.
    + left; exists (x :: a); auto.
    + inversion H; subst. destruct (IH _ _ _ H2) as [(m & -> & ->)|(m & -> & ->)].
      * left; exists m; auto.
      * right; exists m; auto.
Qed.

Lemma escape_inert : forall s, inert (escape_str s).
Proof.
  intros s; rewrite escape_str_enc.
  assert (H : forall d, In d (flat_map enc s) -> d <> c_lt /\ d <> c_gt /\ d <> c_dq).
  { intros d Hd. apply in_flat_map in Hd; destruct Hd as (c & _ & Hd). eapply enc_no; eauto. }
  repeat split; try (intros C; apply H in C; destruct C as (? & ? & ?); congruence).
  clear H. induction s as [|c s IH]; intros before after E.
  - destruct before; discriminate.
  - cbn [flat_map] in E.
    apply app_eq_cases in E. destruct E as [(m & E1 & E2)|(m & E1 & E2)].
    + (* the ampersand lies in [enc c] *)
      destruct m as [|y m].
      { simpl in E2. apply (IH [] after). simpl; auto. }
      simpl in E2; inversion E2; subst y after; clear E2.
      unfold enc in E1.
      destruct (N.eqb_spec c c_amp).
      { destruct before as [|? before]; inversion E1; subst.
        - exists (L "amp;"), c_amp, (flat_map enc s); split; [simpl; auto|reflexivity].
        - repeat (destruct before as [|? before]; [discriminate|]; match goal with H : _ = _ |- _ => inversion H; clear H; subst end). }
      destruct (N.eqb_spec c c_lt).
      { destruct before as [|? before]; inversion E1; subst.
        - exists (L "lt;"), c_lt, (flat_map enc s); split; [simpl; auto|reflexivity].
        - repeat (destruct before as [|? before]; [discriminate|]; match goal with H : _ = _ |- _ => inversion H; clear H; subst end). }
      destruct (N.eqb_spec c c_gt).
      { destruct before as [|? before]; inversion E1; subst.
        - exists (L "gt;"), c_gt, (flat_map enc s); split; [simpl; auto|reflexivity].
        - repeat (destruct before as [|? before]; [discriminate|]; match goal with H : _ = _ |- _ => inversion H; clear H; subst end). }
      destruct (N.eqb_spec c c_dq).
      { destruct before as [|? before]; inversion E1; subst.
        - exists (L "quot;"), c_dq, (flat_map enc s); split; [simpl; auto 6|reflexivity].
        - repeat (destruct before as [|? before]; [discriminate|]; match goal with H : _ = _ |- _ => inversion H; clear H; subst end). }
      destruct before as [|? before]; inversion E1; subst; [congruence|].
      destruct before; discriminate.
    + eapply IH; eauto.
Qed.

Lemma escape_plain : forall v, plain v -> escape v = VStr (escape_str (to_str v)).
Proof. destruct v; simpl; intros; try contradiction; auto. Qed.

(** ** Sorting of attributes *)

Lemma insert_perm : forall A (kv : str * A) l, Permutation (insert_attr kv l) (kv :: l).
Proof.
  induction l as [|kv' l IH]; simpl; auto.
  destruct (sleb _ _); auto. rewrite IH. apply perm_swap.
Qed.

Lemma sort_perm : forall A (l : list (str * A)), Permutation (sort_attrs l) l.
Proof. induction l; simpl; auto. rewrite insert_perm. auto. Qed.

Lemma insert_sorted : forall A (kv : str * A) l,
  StronglySorted by_name l -> StronglySorted by_name (insert_attr kv l).
Proof.
  induction 1 as [|kv' l S IH F]; simpl.
  - repeat constructor.
  - destruct (sleb (fst kv) (fst kv')) eqn:E.
    + constructor; [constructor; auto|]. constructor; auto.
      eapply Forall_impl; [|exact F]. intros x Hx; unfold by_name in *; eapply sleb_trans; eauto.
    + constructor; auto.
      rewrite insert_perm. constructor; auto.
      unfold by_name; destruct (sleb_total (fst kv) (fst kv')); congruence.
Qed.

Lemma sort_sorted : forall A (l : list (str * A)), StronglySorted by_name (sort_attrs l).
Proof. induction l; simpl; [constructor|]. apply insert_sorted; auto. Qed.

Lemma NoDup_keys_eq : forall A (l : list (str * A)) k v v',
  NoDup (map fst l) -> In (k, v) l -> In (k, v') l -> v = v'.
Proof.
  induction l as [|(k0, v0) l IH]; simpl; intros k v v' N H H'; [contradiction|].
  inversion N; subst.
  destruct H as [H|H], H' as [H'|H'].
  - congruence.
  - inversion H; subst. exfalso; apply H2. apply (in_map fst) in H'; auto.
  - inversion H'; subst. exfalso; apply H2. apply (in_map fst) in H; auto.
  - eauto.
Qed.

Lemma sorted_unique : forall A (l l' : list (str * A)),
  StronglySorted by_name l -> StronglySorted by_name l' ->
  Permutation l l' -> NoDup (map fst l) -> l = l'.
Proof.
  intros A l; induction l as [|(k, v) l IH]; intros l' S S' P N.
  - apply Permutation_nil in P; auto.
  - destruct l' as [|(k', v') l'].
    { apply Permutation_sym, Permutation_nil in P; discriminate. }
    inversion S as [|? ? S1 H2]; inversion S' as [|? ? S1' H6]; subst.
    assert (E : (k, v) = (k', v')).
    { assert (I : In (k, v) ((k', v') :: l')) by (eapply Permutation_in; eauto; simpl; auto).
      assert (I' : In (k', v') ((k, v) :: l)) by (eapply Permutation_in; [apply Permutation_sym|]; eauto; simpl; auto).
      destruct I as [I|I]; auto. destruct I' as [I'|I']; auto.
      rewrite Forall_forall in H2, H6. pose proof (H2 _ I'); pose proof (H6 _ I).
      unfold by_name in *; simpl in *. assert (k = k') by (apply sleb_antisym; auto). subst.
      f_equal. apply (NoDup_keys_eq _ ((k', v) :: l) k' v v' N); simpl; auto. }
    inversion E; subst. f_equal. apply IH; auto.
    + eapply Permutation_cons_inv; eauto.
    + inversion N; auto.
Qed.

Lemma dup_keys_spec : forall A (l : list (str * A)), dup_keys l = false <-> NoDup (map fst l).
Proof.
  induction l as [|(k, v) l IH]; simpl.
  - split; auto; constructor.
  - rewrite orb_false_iff, smem_notIn, IH. split.
    + intros (? & ?); constructor; auto.
    + intros H; inversion H; auto.
Qed.

Lemma sort_attrs_perm_eq : forall A (l l' : list (str * A)),
  NoDup (map fst l) -> Permutation l l' -> sort_attrs l = sort_attrs l'.
Proof.
  intros A l l' N P. apply sorted_unique; try apply sort_sorted.
  - rewrite !sort_perm; auto.
  - eapply Permutation_NoDup; [|exact N]. apply Permutation_map, Permutation_sym, sort_perm.
Qed.

Lemma render_attrs_perm : forall l l' mode,
  NoDup (map fst l) -> Permutation l l' -> render_attrs l mode = render_attrs l' mode.
Proof.
  intros l l' mode N P; unfold render_attrs.
  assert (N' : NoDup (map fst l')) by (eapply Permutation_NoDup; [apply Permutation_map|]; eauto).
  apply dup_keys_spec in N as D; apply dup_keys_spec in N' as D'. rewrite D, D'.
  now rewrite (sort_attrs_perm_eq _ _ _ N P).
Qed.

(** ** Reading rendered attributes back *)

Lemma takewhile_name : forall k c t,
  forallb name_char k = true -> name_char c = false ->
  takewhile name_char (k ++ c :: t) = k /\ dropwhile name_char (k ++ c :: t) = c :: t.
Proof.
  intros k c t Hk Hc. rewrite takewhile_app_all, dropwhile_app_all by auto. simpl; rewrite Hc.
  rewrite app_nil_r; auto.
Qed.

Lemma takewhile_name_end : forall k, forallb name_char k = true ->
  takewhile name_char k = k /\ dropwhile name_char k = [].
Proof.
  induction k; simpl; intros; auto. apply andb_true_iff in H; destruct H as (H & H1).
  rewrite H. destruct (IHk H1) as (E & E'); rewrite E, E'; auto.
Qed.

Lemma takewhile_quote : forall s t, ~ In c_dq s ->
  takewhile not_quote (s ++ c_dq :: t) = s /\ dropwhile not_quote (s ++ c_dq :: t) = c_dq :: t.
Proof.
  induction s as [|c s IH]; simpl; intros t H; auto.
  unfold not_quote at 1 3. destruct (N.eqb_spec c c_dq); simpl; [subst; tauto|].
  destruct (IH t) as (-> & ->); auto.
Qed.

Lemma map_lower_id : forall k, smem k html_empty_attrs = true -> lower k = k.
Proof.
  intros k H. apply smem_In in H. vm_compute in H.
  repeat destruct H as [H|H]; subst; try reflexivity. contradiction.
Qed.

Lemma boolean_attribute_smem : forall k, boolean_attribute k <-> smem k html_empty_attrs = true.
Proof. intros; rewrite smem_In. unfold boolean_attribute, html_empty_attrs. reflexivity. Qed.

Lemma boolean_attribute_smem_false : forall k, ~ boolean_attribute k <-> smem k html_empty_attrs = false.
Proof. intros; rewrite boolean_attribute_smem. destruct (smem k html_empty_attrs); split; congruence. Qed.

(** The chunk(s) of one attribute, together with what is seen of it. *)
Lemma render_attr1_seen : forall mode k v, v = VNone \/ plain v ->
  exists o, seen (prefixb (L "html") mode) k v o /\
    match o with
    | None => render_attr1 mode (k, v) = []
    | Some (k', None) => k' = k /\ render_attr1 mode (k, v) = [c_sp :: k]
    | Some (k', Some t) => k' = k /\
        render_attr1 mode (k, v) = [c_sp :: k ++ L "=""" ++ escape_str t ++ [c_dq]]
    end.
Proof.
  intros mode k v Hv. unfold render_attr1.
  destruct (smem k html_empty_attrs) eqn:B.
  - assert (Bk : boolean_attribute k) by (apply boolean_attribute_smem; auto).
    assert (LK : lower k = k) by (apply map_lower_id; auto).
    destruct (prefixb (L "html") mode) eqn:M; rewrite ?andb_true_r; cbn [andb].
    + destruct Hv as [->|Hv].
      { exists None; split; [apply seen_absent; auto|reflexivity]. }
      destruct v; simpl in Hv; try contradiction.
      * destruct b; simpl.
        -- exists (Some (k, None)); split; [apply seen_bare; auto; try discriminate; intros [?|?]; discriminate|]. now rewrite LK.
        -- exists None; split; [apply seen_off; auto; left; auto|reflexivity].
      * assert (z = 0%Z \/ z <> 0%Z) as [->|Z0] by lia.
        { exists None; split; [apply seen_off; auto; right; auto|reflexivity]. }
        exists (Some (k, None)); split; [apply seen_bare; auto; try discriminate; intros [?|?]; congruence|].
        split; auto. destruct z as [|[p|p|]|p]; simpl; try congruence; now rewrite LK.
      * exists (Some (k, None)); split; [apply seen_bare; auto; try discriminate; intros [?|?]; discriminate|]. simpl; now rewrite LK.
      * exists (Some (k, None)); split; [apply seen_bare; auto; try discriminate; intros [?|?]; discriminate|]. simpl; now rewrite LK.
    + destruct Hv as [->|Hv].
      { exists None; split; [apply seen_absent; auto|reflexivity]. }
      destruct v; simpl in Hv; try contradiction.
      * destruct b; simpl.
        -- exists (Some (k, Some k)); split; [apply seen_on_xml; auto; left; auto|auto].
        -- exists None; split; [apply seen_off; auto; left; auto|reflexivity].
      * assert (z = 0%Z \/ z <> 0%Z) as [->|Z0] by lia.
        { exists None; split; [apply seen_off; auto; right; auto|reflexivity]. }
        assert (z = 1%Z \/ z <> 1%Z) as [->|Z1] by lia.
        { exists (Some (k, Some k)); split; [apply seen_on_xml; auto; right; auto|auto]. }
        exists (Some (k, Some (dec_Z z))); split.
        { apply (seen_text_xml false k (VInt z)); auto; try discriminate; intros [?|?]; congruence. }
        split; auto. destruct z as [|[p|p|]|p]; simpl; try congruence; auto.
      * exists (Some (k, Some s)); split; [|auto].
        apply (seen_text_xml false k (VStr s)); auto; try discriminate; intros [?|?]; discriminate.
      * exists (Some (k, Some s)); split; [|auto].
        apply (seen_text_xml false k (VObj s)); auto; try discriminate; intros [?|?]; discriminate.
  - assert (Bk : ~ boolean_attribute k) by (apply boolean_attribute_smem_false; auto).
    destruct Hv as [->|Hv].
    { exists None; split; [apply seen_absent; auto|reflexivity]. }
    exists (Some (k, Some (to_str v))); split.
    { apply seen_text; auto. intros ->; contradiction. }
    split; auto. rewrite andb_false_r, (escape_plain v Hv).
    destruct v; simpl in Hv; try contradiction; auto.
Qed.

Lemma read_bare : forall f k rest o, legal_name k ->
  (rest = [] \/ exists r, rest = c_sp :: r) ->
  read_attrs_fuel f rest = Some o ->
  read_attrs_fuel (S f) ((c_sp :: k) ++ rest) = Some ((k, None) :: o).
Proof.
  intros f k rest o (K1 & K2) R E. change ((c_sp :: k) ++ rest) with (c_sp :: (k ++ rest)).
  cbn [read_attrs_fuel]. rewrite N.eqb_refl.
  assert (H : takewhile name_char (k ++ rest) = k /\ dropwhile name_char (k ++ rest) = rest).
  { destruct R as [->|(r & ->)].
    - rewrite app_nil_r. apply takewhile_name_end; auto.
    - apply takewhile_name; auto. }
  destruct H as (-> & ->). destruct k; [congruence|].
  assert (P : prefixb (L "=""") rest = false) by (destruct R as [->|(r & ->)]; reflexivity).
  rewrite P, E. reflexivity.
Qed.

Lemma read_valued : forall f k t rest o, legal_name k ->
  read_attrs_fuel f rest = Some o ->
  read_attrs_fuel (S f) ((c_sp :: k ++ L "=""" ++ escape_str t ++ [c_dq]) ++ rest)
  = Some ((k, Some t) :: o).
Proof.
  intros f k t rest o (K1 & K2) E.
  replace ((c_sp :: k ++ L "=""" ++ escape_str t ++ [c_dq]) ++ rest)
    with (c_sp :: (k ++ c_eq :: (c_dq :: escape_str t ++ c_dq :: rest))).
  2: { simpl. rewrite <- !app_assoc; simpl. rewrite <- app_assoc; reflexivity. }
  cbn [read_attrs_fuel]. rewrite N.eqb_refl.
  destruct (takewhile_name k c_eq (c_dq :: escape_str t ++ c_dq :: rest) K2 eq_refl) as (-> & ->).
  destruct k; [congruence|]. cbn [L prefixb skipn].
  change (prefixb (L "=""") (c_eq :: c_dq :: escape_str t ++ c_dq :: rest)) with true. cbv iota.
  destruct (takewhile_quote (escape_str t) rest) as (-> & ->).
  { pose proof (escape_inert t) as I; unfold inert in I; tauto. }
  rewrite E; cbn [option_map]. now rewrite decode_escape_str.
Qed.

Lemma attrs_concat_shape : forall mode l, Forall (fun kv => snd kv = VNone \/ plain (snd kv)) l ->
  concat (flat_map (render_attr1 mode) l) = [] \/
  exists r, concat (flat_map (render_attr1 mode) l) = c_sp :: r.
Proof.
  induction 1 as [|(k, v) l H F IH]; cbn [flat_map]; auto.
  destruct (render_attr1_seen mode k v H) as ([(k', [t|])|] & _ & E).
  - destruct E as (_ & ->). right; simpl; eauto.
  - destruct E as (_ & ->). right; simpl; eauto.
  - rewrite E; auto.
Qed.

Lemma read_attrs_ok : forall mode l,
  Forall (fun kv => legal_name (fst kv)) l ->
  Forall (fun kv => snd kv = VNone \/ plain (snd kv)) l ->
  forall f, f > length (flat_map (render_attr1 mode) l) ->
  exists o, all_seen (prefixb (L "html") mode) l o /\
    read_attrs_fuel f (concat (flat_map (render_attr1 mode) l)) = Some o.
Proof.
  induction l as [|(k, v) l IH]; intros K V f F.
  - exists []; split; [constructor|]. destruct f; [simpl in F; lia|reflexivity].
  - inversion K; inversion V; subst. cbn [fst snd] in *.
    destruct (render_attr1_seen mode k v H5) as ([(k', [t|])|] & Sv & E); cbn [flat_map] in *.
    + destruct E as (-> & E); rewrite E in *. simpl in F.
      destruct f as [|f]; [lia|]. destruct (IH H2 H6 f) as (o & So & Ro); [lia|].
      exists ((k, Some t) :: o); split; [econstructor; eauto|].
      apply (read_valued f k t); auto.
    + destruct E as (-> & E); rewrite E in *. simpl in F.
      destruct f as [|f]; [lia|]. destruct (IH H2 H6 f) as (o & So & Ro); [lia|].
      exists ((k, None) :: o); split; [econstructor; eauto|].
      apply (read_bare f k); auto. apply attrs_concat_shape; auto.
    + rewrite E in *. destruct (IH H2 H6 f F) as (o & So & Ro).
      exists o; split; [apply all_seen_none; auto|exact Ro].
Qed.

Lemma concat_length_ge : forall mode l, length (flat_map (render_attr1 mode) l) <= length (concat (flat_map (render_attr1 mode) l)).
Proof.
  intros mode l. assert (H : Forall (fun c => length c >= 1) (flat_map (render_attr1 mode) l)).
  { apply Forall_forall; intros x Hx. apply in_flat_map in Hx; destruct Hx as ((k, v) & _ & Hx).
    unfold render_attr1 in Hx.
    match type of Hx with In _ (match ?d with _ => _ end) => destruct d end; try contradiction;
      destruct (prefixb (L "html") mode && smem k html_empty_attrs); simpl in Hx;
      destruct Hx as [<-|[]]; simpl; lia. }
  induction H; simpl; auto. rewrite app_length; lia.
Qed.

Lemma render_attrs_read : forall attrs mode,
  NoDup (map fst attrs) ->
  Forall (fun kv => legal_name (fst kv)) attrs ->
  Forall (fun kv => snd kv = VNone \/ plain (snd kv)) attrs ->
  exists chunks sorted shown,
    render_attrs attrs mode = Ok chunks /\
    Permutation sorted attrs /\ StronglySorted by_name sorted /\
    all_seen (prefixb (L "html") mode) sorted shown /\
    read_attrs (concat chunks) = Some shown.
Proof.
  intros attrs mode N K V. unfold render_attrs.
  apply dup_keys_spec in N as D; rewrite D.
  set (l := sort_attrs attrs).
  assert (P : Permutation l attrs) by apply sort_perm.
  destruct (read_attrs_ok mode l) with (f := S (length (concat (flat_map (render_attr1 mode) l))))
    as (o & So & Ro).
  - eapply Permutation_Forall; [apply Permutation_sym|]; eauto.
  - eapply Permutation_Forall; [apply Permutation_sym|]; eauto.
  - pose proof (concat_length_ge mode l); lia.
  - exists (flat_map (render_attr1 mode) l), l, o. repeat split; auto. apply sort_sorted.
Qed.

(** ** Flattening *)

Lemma leaves_no_none : forall v, ~ In VNone (leaves v).
Proof.
  induction v using value_ind'; simpl; try (intros [H|H]; [discriminate|contradiction]); auto.
  rewrite in_flat_map. intros (x & Hx & Hn). rewrite Forall_forall in H. eapply H; eauto.
Qed.

Lemma leaves_no_flat : forall v items, ~ In (VFlat items) (leaves v).
Proof.
  induction v using value_ind'; simpl; intros items0; try (intros [H|H]; [discriminate|contradiction]); auto.
  rewrite in_flat_map. intros (x & Hx & Hn). rewrite Forall_forall in H. eapply H; eauto.
Qed.

Lemma filter_all : forall A (f : A -> bool) l, (forall x, In x l -> f x = true) -> filter f l = l.
Proof.
  induction l; simpl; intros; auto. rewrite H by auto. f_equal; auto.
Qed.

Lemma flat_item_leaves : forall v, flat_item v = leaves v.
Proof.
  induction v using value_ind'; auto.
  cbn [flat_item leaves].
  assert (E : (fix go (l : list value) : list value :=
            match l with [] => [] | y :: l' => flat_item y ++ go l' end) items = flat_map leaves items).
  { induction H; simpl; auto. congruence. }
  rewrite E. apply filter_all. intros x Hx. destruct x; auto.
  exfalso. apply in_flat_map in Hx; destruct Hx as (y & _ & Hy). eapply leaves_no_none; eauto.
Qed.

Lemma flat_iter_leaves : forall items, flat_iter items = flat_map leaves items.
Proof. intros; apply flat_map_ext'; apply flat_item_leaves. Qed.

Lemma render_text : forall main, render main = flat_map text_of main.
Proof.
  intros; unfold render, tpl_iter. rewrite flat_iter_leaves, <- flat_map_concat_map, flat_map_flat_map.
  reflexivity.
Qed.

(** ** The explicit stack of [accumulate_str] *)

Definition stack_leaves (stack : list (list value)) : list value :=
  flat_map (flat_map leaves) stack.
Definition stack_size (stack : list (list value)) : nat :=
  fold_right (fun l n => S (vsizes l) + n) 0 stack.


Lemma accumulate_ok : forall fuel s stack, fuel > stack_size stack ->
  (Forall is_str (stack_leaves stack) ->
   accumulate fuel s stack = Ok (s ++ flat_map to_str (stack_leaves stack))) /\
  (~ Forall is_str (stack_leaves stack) -> accumulate fuel s stack = Raise "TypeError").
Proof.
  induction fuel as [|fuel IH]; intros s stack F; [lia|].
  destruct stack as [|[|x it] rest]; cbn [accumulate].
  - split; simpl; [rewrite app_nil_r; auto|]. intros H; exfalso; apply H; constructor. 
  - apply (IH s rest). simpl in F; lia.
  - assert (Hx : leaves x = [] \/ (exists items, x = VFlat items) \/ leaves x = [x]) by (destruct x; eauto).
    destruct x; simpl in F;
      try (split; [intros H; exfalso; inversion H as [|? ? [? E]]; discriminate E | reflexivity]).
    + destruct (IH s (it :: rest)) as (A & B); [simpl; lia|]. split; [apply A|apply B].
    + destruct (IH (s ++ s0) (it :: rest)) as (A & B); [simpl; lia|]. split.
      * intros H. rewrite A.
        { simpl. rewrite <- app_assoc; auto. }
        inversion H; auto.
      * intros H. apply B. intros H'; apply H. constructor; [eexists; eauto|]. exact H'.
    + destruct (IH s (items :: it :: rest)) as (A & B).
      { simpl. change (S (S (vsizes items + (vsizes it + stack_size rest))))%nat
          with (S (S (vsizes items + (vsizes it + stack_size rest)))).
        assert (E : (fix go (l : list value) : nat :=
               match l with [] => 0 | y :: l' => vsize y + go l' end) items = vsizes items)
          by (clear; induction items; simpl; auto).
        rewrite E in F. unfold stack_size in *. lia. }
      assert (E : stack_leaves ((VFlat items :: it) :: rest) = stack_leaves (items :: it :: rest)).
      { unfold stack_leaves. simpl. rewrite <- app_assoc; auto. }
      rewrite E. split; auto.
Qed.

Lemma accumulate_str_ok : forall items,
  (Forall is_str (flat_map leaves items) ->
   accumulate_str items = Ok (flat_map to_str (flat_map leaves items))) /\
  (~ Forall is_str (flat_map leaves items) -> accumulate_str items = Raise "TypeError").
Proof.
  intros items. unfold accumulate_str.
  destruct (accumulate_ok (S (S (vsizes items))) [] [items]) as (A & B).
  - simpl; lia.
  - unfold stack_leaves in *. simpl in *. rewrite app_nil_r in *. auto.
Qed.

(** ** Collecting attribute parts *)

Definition part_ok (v : value) : Prop :=
  match v with VFlat items => Forall is_str (flat_map leaves items) | _ => True end.

Lemma collect_parts_ok : forall it, Forall part_ok it ->
  exists l, collect_parts it = Ok l /\ concat l = flat_map text_of it /\
    (l = [] <-> Forall (fun v => v = VNone) it).
Proof.
  induction 1 as [|v it Hv _ (l & E & C & I)].
  - exists []; repeat split; auto.
  - assert (D : v = VNone \/ v <> VNone) by (destruct v; auto; right; discriminate).
    destruct D as [->|D].
    + exists l. repeat split; auto.
      * intros ->; constructor; auto. apply I; auto.
      * intros H; inversion H; apply I; auto.
    + assert (T : exists t, collect_parts (v :: it) = Ok (t :: l) /\ t = text_of v).
      { unfold text_of.
        destruct v; try congruence; cbn [collect_parts]; try (rewrite E; eexists; split; [reflexivity|]; simpl; rewrite app_nil_r; reflexivity).
        destruct (accumulate_str_ok items) as (A & _). rewrite (A Hv), E. eexists; split; reflexivity. }
      destruct T as (t & T & ->). exists (text_of v :: l). repeat split; auto.
      * simpl; congruence.
      * discriminate.
      * intros H; inversion H; congruence.
Qed.

Lemma collect_ok : forall it, Forall part_ok it ->
  (Forall (fun v => v = VNone) it -> collect it = Ok VNone) /\
  (~ Forall (fun v => v = VNone) it -> collect it = Ok (VStr (flat_map text_of it))).
Proof.
  intros it H. destruct (collect_parts_ok it H) as (l & E & C & I).
  unfold collect; rewrite E; simpl. split; intros N.
  - apply I in N; subst; auto.
  - destruct l; [exfalso; apply N, I; auto|]. now rewrite C.
Qed.
