(** * Properties C01 - C10: escaping, attributes, flattening *)

From Coq Require Import Ascii String List NArith ZArith Bool Permutation Sorted.
From Verif Require Import PyStr PyStrLemmas M_Values S_Values P_Values M_Iter S_Iter P_Iter S_Show P_Show.
Import ListNotations.
Open Scope list_scope.

(** C01.  Whatever plain value an expression has, its escaped text cannot be read as markup. *)
Theorem C01_escaped_value_is_inert : forall v, plain v ->
  exists out, escape v = VStr out /\ inert out.
Proof. exact (fun v H => ex_intro _ _ (conj (escape_plain v H) (escape_inert (to_str v)))). Qed.
Print Assumptions C01_escaped_value_is_inert.

Example C01_example : plain (VStr (L "<a href=""x"">&amp;</a>")) /\
  escape (VStr (L "<a href=""x"">&amp;</a>")) =
  VStr (L "&lt;a href=&quot;x&quot;&gt;&amp;amp;&lt;/a&gt;").
Proof. split; [exact I | vm_compute; reflexivity]. Qed.

(** C02.  Nothing is lost: a reader decodes exactly the original text ... *)
Theorem C02_escape_decodes_back : forall v, plain v ->
  exists out, escape v = VStr out /\ decode out = to_str v.
Proof. exact (fun v H => ex_intro _ _ (conj (escape_plain v H) (decode_escape_str (to_str v)))). Qed.
Print Assumptions C02_escape_decodes_back.

(** ... that is, the one text of the value: a numeral for an integer, [True] or [False], a string itself. *)
Theorem C02_text_of_value : forall v, plain v ->
  exists out s, escape v = VStr out /\ decode out = s /\ shown_as v s /\ forall t, shown_as v t -> t = s.
Proof.
  intros v H. exists (escape_str (to_str v)), (to_str v). split; [exact (escape_plain v H)|]. split; [apply decode_escape_str|].
  split; [apply to_str_shown; intros l ->; exact H|]. exact (shown_as_to_str v).
Qed.
Print Assumptions C02_text_of_value.
Example C02_text_example : plain (VInt (-120)) /\ shown_as (VInt (-120)) (L "-120").
Proof.
  split; [exact I|]. apply (sh_negative 120 (L "120")); [discriminate|]. apply (nu_more 12 0 (L "12")); [discriminate|reflexivity|].
  apply (nu_more 1 2 (L "1")); [discriminate|reflexivity|]. now apply (nu_digit 1).
Qed.

(** ... also inside a longer output, whatever follows. *)
Theorem C02_escape_decodes_in_context : forall s rest,
  decode (escape_str s ++ rest) = s ++ decode rest.
Proof. exact decode_escape. Qed.
Print Assumptions C02_escape_decodes_in_context.

Theorem C02_escape_injective : forall s t, escape_str s = escape_str t -> s = t.
Proof.
  exact (fun s t H => eq_trans (eq_sym (decode_escape_str s))
                        (eq_trans (f_equal decode H) (decode_escape_str t))).
Qed.
Print Assumptions C02_escape_injective.

Theorem C02_escape_splits : forall a b, escape_str (a ++ b) = escape_str a ++ escape_str b.
Proof. exact escape_str_app. Qed.
Print Assumptions C02_escape_splits.

Theorem C02_escape_identity : forall s,
  ~ In c_amp s -> ~ In c_lt s -> ~ In c_gt s -> ~ In c_dq s -> escape_str s = s.
Proof.
  intros s A B C D; apply escape_str_id; intros c H; unfold special.
  destruct (N.eqb_spec c c_amp), (N.eqb_spec c c_lt), (N.eqb_spec c c_gt), (N.eqb_spec c c_dq);
    subst; try contradiction; reflexivity.
Qed.
Print Assumptions C02_escape_identity.

Example C02_example : decode (escape_str (L "if a<b && c>""d"": &lt;")) = L "if a<b && c>""d"": &lt;".
Proof. vm_compute; reflexivity. Qed.

(** C03.  Each kind of value is treated as documented, and the text of a plain
    value is escaped exactly once. *)
Theorem C03_value_kinds : forall v,
  match v with
  | VNone => escape v = VNone
  | VFlat items => escape v = VFlat items
  | VHtml h _ => escape v = VStr h
  | _ => exists out, escape v = VStr out /\ inert out /\ decode out = to_str v
  end.
Proof.
  intros v; destruct v; try reflexivity;
    eexists; (split; [reflexivity | split; [apply escape_inert | apply decode_escape_str]]).
Qed.
Print Assumptions C03_value_kinds.

Theorem C03_rendering_of_values : forall v,
  render [escape v] =
  match v with
  | VNone => []
  | VFlat items => flat_map text_of items
  | VHtml h _ => h
  | _ => escape_str (to_str v)
  end.
Proof.
  intros v; rewrite render_text. destruct v; cbn; rewrite ?app_nil_r; try reflexivity.
  unfold text_of. cbn [leaves]. rewrite flat_map_flat_map. reflexivity.
Qed.
Print Assumptions C03_rendering_of_values.

Example C03_example : render [escape VNone; escape (VInt 42); escape (VFlat [VStr (L "<b>")]);
                              escape (VStr (L "<b>"))] = L "42<b>&lt;b&gt;".
Proof. vm_compute; reflexivity. Qed.

(** C04.  Rendered attributes read back as exactly the given ones that are to be
    seen, in the order of their names. *)
Theorem C04_attributes_read_back : forall attrs mode,
  NoDup (map fst attrs) ->
  Forall (fun kv => legal_name (fst kv)) attrs ->
  Forall (fun kv => snd kv = VNone \/ plain (snd kv)) attrs ->
  exists chunks sorted shown,
    render_attrs attrs mode = Ok chunks /\
    Permutation sorted attrs /\ StronglySorted by_name sorted /\
    all_seen (prefixb (L "html") mode) sorted shown /\
    read_attrs (concat chunks) = Some shown.
Proof. exact render_attrs_read. Qed.
Print Assumptions C04_attributes_read_back.

Example C04_example :
  let attrs := [(L "title", VStr (L """><script x='"));
                (L "checked", VBool true); (L "id", VInt 7); (L "class", VNone)] in
  NoDup (map fst attrs) /\ Forall (fun kv => legal_name (fst kv)) attrs /\
  Forall (fun kv => snd kv = VNone \/ plain (snd kv)) attrs /\
  rmap (fun c => read_attrs (concat c)) (render_attrs attrs (L "xml")) =
  Ok (Some [(L "checked", Some (L "checked")); (L "id", Some (L "7"));
            (L "title", Some (L """><script x='"))]).
Proof.
  cbv zeta. split; [|split; [|split]].
  - apply dup_keys_spec; reflexivity.
  - repeat constructor; discriminate.
  - repeat (apply Forall_cons; [simpl; auto|]); constructor.
  - vm_compute; reflexivity.
Qed.

(** C05.  The order in which the mapping enumerates its items is irrelevant. *)
Theorem C05_attribute_order_canonical : forall attrs attrs' mode,
  NoDup (map fst attrs) -> Permutation attrs attrs' ->
  render_attrs attrs mode = render_attrs attrs' mode.
Proof. exact render_attrs_perm. Qed.
Print Assumptions C05_attribute_order_canonical.

Example C05_example :
  render_attrs [(L "b", VInt 1); (L "a", VInt 2)] (L "xml") =
  render_attrs [(L "a", VInt 2); (L "b", VInt 1)] (L "xml") /\
  render_attrs [(L "b", VInt 1); (L "a", VInt 2)] (L "xml") = Ok [L " a=""2"""; L " b=""1"""].
Proof. split; vm_compute; reflexivity. Qed.

(** C06.  Boolean attributes; [mode] is xml exactly when it does not start with "html". *)
Theorem C06_boolean_on_html : forall k v mode, boolean_attribute k ->
  prefixb (L "html") mode = true -> v <> VNone -> ~ is_false v -> 
  render_attrs [(k, v)] mode = Ok [c_sp :: k].
Proof.
  intros k v mode B M N F. unfold render_attrs. cbn [dup_keys map smem existsb sort_attrs insert_attr flat_map].
  apply boolean_attribute_smem in B as B'. simpl orb. cbv iota.
  rewrite app_nil_r. unfold render_attr1. rewrite B', M. cbn [andb].
  rewrite (map_lower_id k B').
  destruct v as [| [|] | [|[p|p|]|p] | | | |]; try reflexivity; exfalso;
    try (apply N; reflexivity); apply F; red; auto.
Qed.
Print Assumptions C06_boolean_on_html.

Theorem C06_boolean_off : forall k v mode, boolean_attribute k ->
  is_false v \/ v = VNone -> render_attrs [(k, v)] mode = Ok [].
Proof.
  intros k v mode B F. unfold render_attrs. cbn [dup_keys map smem existsb sort_attrs insert_attr flat_map].
  apply boolean_attribute_smem in B as B'. simpl orb. cbv iota. rewrite app_nil_r.
  unfold render_attr1. rewrite B'. destruct F as [[->| ->]| ->]; reflexivity.
Qed.
Print Assumptions C06_boolean_off.

Theorem C06_boolean_on_xml : forall k v mode, boolean_attribute k ->
  prefixb (L "html") mode = false -> is_true v ->
  render_attrs [(k, v)] mode = Ok [[c_sp] ++ k ++ L "=""" ++ k ++ [c_dq]].
Proof.
  intros k v mode B M T. unfold render_attrs. cbn [dup_keys map smem existsb sort_attrs insert_attr flat_map].
  apply boolean_attribute_smem in B as B'. simpl orb. cbv iota. rewrite app_nil_r.
  unfold render_attr1. rewrite B', M. cbn [andb].
  assert (E : escape_str k = k).
  { apply boolean_attribute_smem in B'. unfold boolean_attribute in B'.
    repeat (destruct B' as [<-|B']; [vm_compute; reflexivity|]); contradiction. }
  destruct T as [->| ->]; cbn [as_bool to_str escape]; now rewrite E.
Qed.
Print Assumptions C06_boolean_on_xml.

Theorem C06_other_attributes : forall k v mode, ~ boolean_attribute k -> plain v ->
  render_attrs [(k, v)] mode = Ok [[c_sp] ++ k ++ L "=""" ++ escape_str (to_str v) ++ [c_dq]].
Proof.
  intros k v mode B P. unfold render_attrs. cbn [dup_keys map smem existsb sort_attrs insert_attr flat_map].
  apply boolean_attribute_smem_false in B as B'. simpl orb. cbv iota. rewrite app_nil_r.
  unfold render_attr1. rewrite B', andb_false_r.
  destruct v; simpl in P; try contradiction; reflexivity.
Qed.
Print Assumptions C06_other_attributes.

Theorem C06_none_omitted : forall k mode, render_attrs [(k, VNone)] mode = Ok [].
Proof.
  intros k mode. unfold render_attrs. cbn [dup_keys map smem existsb sort_attrs insert_attr flat_map].
  simpl orb. cbv iota. rewrite app_nil_r. unfold render_attr1.
  destruct (smem k html_empty_attrs); reflexivity.
Qed.
Print Assumptions C06_none_omitted.

Example C06_example :
  boolean_attribute (L "checked") /\ ~ boolean_attribute (L "title") /\
  render_attrs [(L "checked", VBool true)] (L "html5") = Ok [L " checked"] /\
  render_attrs [(L "checked", VBool true)] (L "xml") = Ok [L " checked=""checked"""] /\
  render_attrs [(L "checked", VBool false)] (L "xml") = Ok [] /\
  render_attrs [(L "title", VBool false)] (L "xml") = Ok [L " title=""False"""].
Proof.
  repeat split; try (vm_compute; reflexivity).
  - left; reflexivity.
  - rewrite boolean_attribute_smem; vm_compute; discriminate.
Qed.

(** C07.  Collecting the parts of an interpolated attribute value: absent iff
    all parts are [None], else the concatenation of their texts. *)
Theorem C07_collect : forall parts,
  (forall items, In (VFlat items) parts -> Forall is_str (flat_map leaves items)) ->
  ((forall v, In v parts -> v = VNone) -> collect parts = Ok VNone) /\
  ((exists v, In v parts /\ v <> VNone) -> collect parts = Ok (VStr (flat_map text_of parts))).
Proof.
  intros parts H.
  destruct (collect_ok parts) as (A & B).
  { apply Forall_forall; intros v Hv; destruct v; simpl; auto. }
  split.
  - intros N; apply A, Forall_forall, N.
  - intros (v & I & N); apply B. rewrite Forall_forall. auto.
Qed.
Print Assumptions C07_collect.

Example C07_example :
  collect [VNone; VNone] = Ok VNone /\ collect [VStr []] = Ok (VStr []) /\
  collect [VStr (L "a"); VNone; VFlat [VStr (L "b"); VFlat [VStr (L "c")]]; VInt 5] = Ok (VStr (L "abc5")).
Proof. repeat split; vm_compute; reflexivity. Qed.

(** C08.  Iteration yields the non-None leaves in order; rendering concatenates. *)
Theorem C08_flattening : forall items,
  flat_iter items = flat_map leaves items /\
  (forall v, In v (flat_iter items) -> v <> VNone /\ forall l, v <> VFlat l) /\
  render items = flat_map (fun v => flat_map to_str (leaves v)) items.
Proof.
  intros items; split; [apply flat_iter_leaves|split; [|apply render_text]].
  rewrite flat_iter_leaves. intros v Hv. apply in_flat_map in Hv; destruct Hv as (x & _ & Hx).
  split; [intros ->; eapply leaves_no_none; eauto | intros l ->; eapply leaves_no_flat; eauto].
Qed.
Print Assumptions C08_flattening.

(** The text of the output is the texts of these values, one after another. *)
Theorem C08_text : forall items, exists texts, Forall2 shown_as (flat_map leaves items) texts /\ render items = concat texts.
Proof.
  intros items. exists (map to_str (flat_map leaves items)). split.
  - destruct (C08_flattening items) as (E & Hn & _). rewrite E in Hn. clear E. generalize dependent (flat_map leaves items). induction l as [|v l IH]; intros Hn; [constructor|].
    cbn [map]. constructor; [apply to_str_shown; exact (proj2 (Hn v (or_introl eq_refl)))|]. apply IH. intros x X. apply Hn. now right.
  - rewrite render_text, <- flat_map_concat_map. induction items as [|v l IH]; [reflexivity|]. cbn [flat_map]. now rewrite IH, flat_map_app.
Qed.
Print Assumptions C08_text.

Example C08_example :
  render [VStr (L "a"); VFlat [VNone; VFlat [VStr (L "b"); VFlat []; VInt 3]]; VNone; VStr (L "c")] = L "ab3c".
Proof. vm_compute; reflexivity. Qed.

(** C09.  [accumulate_str] returns the concatenation of what iteration yields; if
    some leaf is not a string it raises TypeError. *)
Theorem C09_accumulate_str : forall items,
  (Forall is_str (flat_map leaves items) ->
   accumulate_str items = Ok (concat (map to_str (flat_iter items)))) /\
  (~ Forall is_str (flat_map leaves items) -> accumulate_str items = Raise "TypeError").
Proof.
  intros items; rewrite flat_iter_leaves, <- flat_map_concat_map. apply accumulate_str_ok.
Qed.
Print Assumptions C09_accumulate_str.

Example C09_example :
  accumulate_str [VFlat [VStr (L "a"); VNone; VFlat [VFlat [VStr (L "b")]]]; VStr (L "c")] = Ok (L "abc").
Proof. vm_compute; reflexivity. Qed.

(** C10.  A [literal()] printed n+1 times appears the first time only. *)
Theorem C10_literal_consumed_by_first_use : forall fuel n h text,
  let (h1, v) := literal h text in
  forall i, v = IRef i ->
  print_times (S (S fuel)) (S n) h1 i = Ok ([text] :: repeat [] n).
Proof. exact print_literal. Qed.
Print Assumptions C10_literal_consumed_by_first_use.

(** Any flattener, whatever it contains and whatever the heap: after a complete use,
    a second one yields nothing. *)
Theorem C10_second_use_is_empty : forall f g h i out h',
  drain f h i = Ok (out, h') -> drain (S g) h' i = Ok ([], h').
Proof. exact drain_twice. Qed.
Print Assumptions C10_second_use_is_empty.

(** The first use yields all texts, in order, if every flattener in them is new; it takes their iterators
    and no others. *)
Theorem C10_first_use : forall h i out used,
  unfolds h (nth i h []) out used -> NoDup (i :: used) ->
  exists f h', (forall f', f <= f' -> drain f' h i = Ok (out, h')) /\
    (forall a, nth a h' [] = if existsb (Nat.eqb a) (i :: used) then [] else nth a h []).
Proof.
  intros h i out used U N. destruct (drain_unfolds h _ out used U h i eq_refl N (fun a _ => eq_refl)) as (f & h' & D & Z & O).
  exists f, h'. split; [exact D|]. intros a. destruct (existsb (Nat.eqb a) (i :: used)) eqn:E.
  - apply existsb_exists in E as (b & Hb & Eb). apply Nat.eqb_eq in Eb as ->. now apply Z.
  - apply O. intros X. assert (existsb (Nat.eqb a) (i :: used) = true) by (apply existsb_exists; exists a; split; [exact X|apply Nat.eqb_refl]). congruence.
Qed.
Print Assumptions C10_first_use.
Example C10_first_use_example :
  let h := [[IStr (L "a"); IRef 2; IStr (L "d")]; [IStr (L "x")]; [IStr (L "b"); INone; IRef 3]; [IStr (L "c")]] in
  unfolds h (nth 0 h []) [L "a"; L "b"; L "c"; L "d"] [2; 3] /\ NoDup [0; 2; 3].
Proof.
  split; [|repeat constructor; cbn; intuition congruence]. cbn [nth]. apply unfolds_str.
  apply (unfolds_ref _ 2 _ [L "b"; L "c"] [3] [L "d"] []); cbn [nth]; [|repeat constructor].
  apply unfolds_str, unfolds_none. apply (unfolds_ref _ 3 _ [L "c"] [] [] []); cbn [nth]; repeat constructor.
Qed.

(** Hence the natural expectation, that a Markup value can be printed twice, fails. *)
Theorem C10_markup_reusable_refuted :
  exists text h i, literal [] text = (h, IRef i) /\
    print_times 10 2 h i <> Ok [[text]; [text]].
Proof. exists (L "<br/>"), [[IStr (L "<br/>")]], 0. split; [reflexivity|vm_compute; discriminate]. Qed.
Print Assumptions C10_markup_reusable_refuted.

Example C10_example :
  literal [] (L "<br/>") = ([[IStr (L "<br/>")]], IRef 0) /\
  print_times 10 3 [[IStr (L "<br/>")]] 0 = Ok [[L "<br/>"]; []; []].
Proof. split; reflexivity. Qed.
