(** * Generating code twice: what stays the same *)

From Coq Require Import Ascii String List NArith ZArith Bool Lia Arith.
From Verif Require Import PyStr PyStrLemmas M_IR S_IR P_IR P_IR4.
Import ListNotations.
Open Scope nat_scope.
Open Scope list_scope.

(** All texts in generated code. *)
Definition stmt_text (p : pstmt) : str := match p with PText _ t => t | _ => [] end.
Definition item_text (i : item) : str :=
  match i with
  | IIndent | IDedent => []
  | IText _ t _ => t
  | ILines _ ps => flat_map (fun p => stmt_text (snd p)) ps
  end.
Local Notation texts := (flat_map item_text).
Local Notation tot l := (length (texts l)).
Lemma texts_app : forall a b, texts (a ++ b) = texts a ++ texts b.
Proof. intros. apply flat_map_app. Qed.
Lemma texts_cons : forall i l, texts (i :: l) = item_text i ++ texts l.
Proof. reflexivity. Qed.
Lemma generate_texts : forall l n, flat_map (fun x => stmt_text (p_stmt x)) (generate_from n l) = texts l.
Proof.
  induction l as [|i l IH]; intros n; [reflexivity|]. destruct i as [| |ln t g|ln ps]; cbn [generate_from]; rewrite texts_cons; cbn [item_text].
  - apply IH.
  - apply IH.
  - cbn [flat_map p_stmt]. now rewrite IH.
  - rewrite flat_map_app, IH. f_equal. rewrite !flat_map_concat_map, map_map. reflexivity.
Qed.
Lemma texts_optimize : forall l, texts (optimize l) = texts l.
Proof.
  assert (G : forall l last, texts (optimize_from last l) = match last with Some i => item_text i | None => [] end ++ texts l).
  { induction l as [|i l IH]; intros last.
    - destruct last; cbn; now rewrite ?app_nil_r.
    - assert (D : texts (match last with Some n => n :: optimize_from (Some i) l | None => optimize_from (Some i) l end) = match last with Some i => item_text i | None => [] end ++ texts (i :: l)).
      { destruct last; rewrite ?texts_cons, IH; reflexivity. }
      destruct i as [| |ln t g|ln ps]; cbn [optimize_from]; destruct last as [[| |ln0 t0 g0|ln0 ps0]|]; try exact D.
      destruct (oseqb g0 g); [|exact D]. rewrite IH, texts_cons. cbn [item_text]. now rewrite <- app_assoc. }
  intros l. unfold optimize. now rewrite G.
Qed.
Local Notation items := (flat_map iter).
Local Notation written b := (texts (items b)).
Local Notation weight b := (tot (items b)).
Lemma texts_body : forall b, texts (body_iter b) = written b.
Proof. intros. apply texts_optimize. Qed.
Lemma texts_or : forall b, texts (match body_iter b with [] => [ILines 0 (at0 [PPass])] | b' => b' end) = written b.
Proof. intros b. rewrite <- texts_body. destruct (body_iter b); reflexivity. Qed.
Ltac bare := rewrite !texts_cons, texts_app, ?texts_body, ?texts_or; cbn; now rewrite ?app_nil_r.

Lemma tot_def : forall ln i d b, texts (iter (NDef ln i d b)) = written b.
Proof.
  intros ln i d b. change (iter (NDef ln i d b)) with (ILines ln (at0 [if i then PDecorate else PExpose; PDef d]) :: IIndent ::
      (match body_iter b with [] => [ILines 0 (at0 [PPass])] | b' => b' end) ++ [IDedent]). destruct i; bare.
Qed.
Lemma tot_call : forall ln d c b, texts (iter (NCall ln d c b)) = written b.
Proof. intros ln d c b. change (iter (NCall ln d c b)) with (ILines ln (at0 [PDecorate; PDef d]) :: IIndent :: body_iter b ++ [IDedent; ILines 0 (at0 [PYield c])]). bare. Qed.
Lemma tot_for : forall ln d b, texts (iter (NFor ln d b)) = written b.
Proof. intros ln d b. change (iter (NFor ln d b)) with (ILines ln (at0 [PFor d]) :: IIndent :: body_iter b ++ [IDedent]). bare. Qed.
Lemma tot_case : forall ln d b, texts (iter (NCase ln d b)) = written b.
Proof. intros ln d b. change (iter (NCase ln d b)) with (ILines ln (at0 [PCase d]) :: IIndent :: body_iter b ++ [IDedent]). bare. Qed.
Lemma tot_if : forall ln d b, texts (iter (NIf ln d b)) = written b.
Proof. intros ln d b. change (iter (NIf ln d b)) with (ILines ln (at0 [PIf d]) :: IIndent :: body_iter b ++ [IDedent]). bare. Qed.
Lemma tot_else : forall ln b, texts (iter (NElse ln b)) = written b.
Proof. intros ln b. change (iter (NElse ln b)) with (ILines ln (at0 [PElse]) :: IIndent :: body_iter b ++ [IDedent]). bare. Qed.
Lemma tot_switch : forall ln d b, texts (iter (NSwitch ln d b)) = written b.
Proof. intros ln d b. change (iter (NSwitch ln d b)) with (ILines ln (at0 [PPushSwitch d; PIfFalse]) :: body_iter b ++ [ILines 0 (at0 [PPopSwitch])]). bare. Qed.
Lemma tot_with : forall ln v b, texts (iter (NWith ln v b)) = written b.
Proof.
  intros ln v b. change (iter (NWith ln v b)) with (ILines ln (at0 (PPushWith (map fst v) :: map (fun kv => PAssign (fst kv) (snd kv)) v)) :: body_iter b ++ [ILines 0 (at0 [PPopWith (map fst v)])]).
  rewrite !texts_cons, texts_app, texts_body. assert (E : item_text (ILines ln (at0 (PPushWith (map fst v) :: map (fun kv => PAssign (fst kv) (snd kv)) v))) = []).
  { cbn. unfold at0. rewrite map_map. induction v; [reflexivity|exact IHv]. }
  rewrite E. cbn. now rewrite app_nil_r.
Qed.
Lemma tot_attr : forall ln a v g m gen gen2 x, texts (iter (NAttr ln a v g m gen gen2 x)) = written v.
Proof.
  intros ln a v g m gen gen2 x.
  set (attr := fun ln gen => ILines ln (at0 [PDefGen gen]) :: IIndent :: (match v with [] => [IText 0 [] None] | _ => body_iter v end) ++
        [IDedent; ILines 0 (at0 [PCollect gen; PForAttr x a gen m; PYieldVar x])]).
  assert (A : forall ln gen, texts (attr ln gen) = written v).
  { intros l0 g0. unfold attr. rewrite !texts_cons, texts_app. assert (E : texts (match v with [] => [IText 0 [] None] | _ => body_iter v end) = written v) by (destruct v; [reflexivity|apply texts_body]). rewrite E. cbn. now rewrite app_nil_r. }
  change (iter (NAttr ln a v g m gen gen2 x)) with (match truthy_guard g with Some c => ILines 0 (at0 [PIf c]) :: IIndent :: optimize (attr 0 gen2) ++ [IDedent] | None => attr ln gen end).
  destruct (truthy_guard g); [|apply A]. rewrite !texts_cons, texts_app, texts_optimize, A. cbn. now rewrite app_nil_r.
Qed.

(** ** Lists *)
Fixpoint run_empty (g : option str) (l : list node) : Prop :=
  match l with
  | NText _ t g' :: l' => if oseqb g g' then t = [] /\ run_empty g l' else True
  | _ => True
  end.
Lemma absorb_len : forall l t g, length t <= length (absorb t g l) /\ (length (absorb t g l) = length t -> run_empty g l).
Proof.
  induction l as [|n l IH]; intros t g; [now split|]. destruct n; try (now split). cbn [absorb run_empty]. destruct (oseqb g guard); [|now split].
  destruct (IH (t ++ text) g) as [A B]. rewrite app_length in A, B. split; [lia|]. intros E. split; [destruct text; [reflexivity|cbn in *; lia]|]. apply B. lia.
Qed.
Lemma absorb_empty : forall l t g, run_empty g l -> absorb t g l = t.
Proof.
  induction l as [|n l IH]; intros t g R; [reflexivity|]. destruct n; try reflexivity. cbn [absorb run_empty] in *. destruct (oseqb g guard); [|reflexivity].
  destruct R as [-> R]. rewrite app_nil_r. now apply IH.
Qed.
Lemma weight_cons : forall n l, weight (n :: l) = tot (iter n) + weight l.
Proof. intros. cbn [flat_map]. now rewrite texts_app, app_length. Qed.
Lemma quiet_of_run : forall ln t g l, run_empty g l -> no_repeats l -> no_repeats (NText ln t g :: l).
Proof.
  intros ln t g l R Q. cbn [no_repeats]. split; [|exact Q]. destruct l as [|n l]; [exact Logic.I|]. destruct n; try exact Logic.I. intros <-.
  cbn [run_empty] in R. assert (E : oseqb g g = true) by (destruct (oseqb g g) eqn:E; [reflexivity|apply oseqb_neq in E; congruence]). rewrite E in R. tauto.
Qed.
Lemma mutate_body_len : forall l prev, weight l <= weight (mutate_body prev l) /\
  (weight (mutate_body prev l) = weight l -> (forall g, prev = Some g -> run_empty g l) -> no_repeats l).
Proof.
  induction l as [|n l IH]; intros prev; [split; [cbn; lia|intros _ _; exact Logic.I]|].
  assert (O : (match n with NText _ _ _ => False | _ => True end) -> weight (n :: l) <= weight (mutate_body prev (n :: l)) /\
    (weight (mutate_body prev (n :: l)) = weight (n :: l) -> (forall g, prev = Some g -> run_empty g (n :: l)) -> no_repeats (n :: l))).
  { intros Hn. destruct (IH None) as [A B]. assert (E : mutate_body prev (n :: l) = n :: mutate_body None l) by (destruct n; try reflexivity; destruct Hn).
    rewrite E, !weight_cons. split; [lia|]. intros E2 _. assert (Q : no_repeats l) by (apply B; [lia|discriminate]). destruct n; exact Q || destruct Hn. }
  destruct n; try (apply O; exact Logic.I). clear O. rename text into t. rename guard into g. cbn [mutate_body].
  destruct (IH (Some g)) as [A B]. rewrite !weight_cons.
  destruct (match prev with Some g0 => oseqb g0 g | None => false end) eqn:J.
  - split; [lia|]. intros E H. destruct prev as [g0|]; [|discriminate]. specialize (H g0 eq_refl). cbn [run_empty] in H. rewrite J in H. destruct H as [Ht R].
    assert (g0 = g) as -> by (destruct (oseqb g0 g) eqn:E2; [|discriminate]; now apply oseqb_eq in E2).
    apply quiet_of_run; [exact R|]. apply B; [lia|]. intros g1 E1. now injection E1 as <-.
  - destruct (absorb_len l t g) as [A2 B2]. assert (E0 : forall t, tot (iter (NText ln t g)) = length t) by (intros; cbn; now rewrite app_nil_r). rewrite !E0. split; [lia|].
    intros E _. assert (R : run_empty g l) by (apply B2; lia). apply quiet_of_run; [exact R|]. apply B; [lia|]. intros g1 E1. now injection E1 as <-.
Qed.
Lemma repeats_map : forall l, no_repeats (map mutate l) <-> no_repeats l.
Proof.
  induction l as [|n l IH]; [reflexivity|]. destruct n; try exact IH. cbn [map mutate no_repeats]. rewrite IH. destruct l as [|m l]; [reflexivity|]. destruct m; reflexivity.
Qed.
Lemma quiet_run : forall l ln t g, no_repeats (NText ln t g :: l) -> run_empty g l.
Proof.
  induction l as [|n l IH]; intros ln t g [A B]; [exact Logic.I|]. destruct n; try exact Logic.I. cbn [run_empty]. destruct (oseqb g guard) eqn:E; [|exact Logic.I].
  apply oseqb_eq in E. subst guard. split; [now apply A|]. now apply (IH ln0 text).
Qed.
Lemma mutate_body_quiet : forall l prev, no_repeats l -> mutate_body prev l = l.
Proof.
  induction l as [|n l IH]; intros prev Q; [reflexivity|]. destruct n; cbn [mutate_body]; try (rewrite IH; [reflexivity|exact Q]).
  rewrite (absorb_empty l text guard (quiet_run _ _ _ _ Q)). rewrite IH by apply Q. now destruct (match prev with Some g0 => oseqb g0 guard | None => false end).
Qed.

(** ** Nodes *)
Local Notation all_settled := (fix go (l : list node) : Prop := match l with [] => True | m :: l' => settled m /\ go l' end).
Definition grows (n : node) : Prop := tot (iter n) <= tot (iter (mutate n)) /\ (tot (iter (mutate n)) = tot (iter n) -> settled n).
Lemma map_grows : forall b, Forall grows b -> weight b <= weight (map mutate b) /\ (weight (map mutate b) = weight b -> all_settled b).
Proof.
  intros b F. induction F as [|n b [A B] F [IH1 IH2]]; [split; [cbn; lia|intros _; exact Logic.I]|]. cbn [map]. rewrite !weight_cons. split; [lia|].
  intros E. split; [apply B; lia|apply IH2; lia].
Qed.
Lemma body_grows : forall b, Forall grows b -> weight b <= weight (mutate_body None (map mutate b)) /\
  (weight (mutate_body None (map mutate b)) = weight b -> no_repeats b /\ all_settled b).
Proof.
  intros b F. destruct (map_grows b F) as [A B]. destruct (mutate_body_len (map mutate b) None) as [C D]. split; [lia|]. intros E. split.
  - apply repeats_map. apply D; [lia|discriminate].
  - apply B. lia.
Qed.
Lemma node_grows : forall n, grows n.
Proof.
  induction n using node_ind'; unfold grows; cbn [mutate settled]; try (split; [lia|intros _; exact Logic.I]);
    rewrite ?tot_def, ?tot_call, ?tot_for, ?tot_case, ?tot_if, ?tot_else, ?tot_switch, ?tot_with, ?tot_attr; now apply body_grows.
Qed.
Lemma settled_go : forall l, Forall (fun n => settled n -> mutate n = n) l -> all_settled l -> map mutate l = l.
Proof. intros l F. induction F as [|n l B F IH]; intros S0; [reflexivity|]. destruct S0. cbn [map]. rewrite B, IH by assumption. reflexivity. Qed.
Lemma mutate_settled : forall n, settled n -> mutate n = n.
Proof.
  induction n using node_ind'; intros S0; cbn [mutate settled] in *; try reflexivity;
    destruct S0 as [S1 S2]; rewrite (settled_go _ H S2), mutate_body_quiet; try reflexivity; exact S1.
Qed.
Theorem twice : forall t, generate_python (template_after t) = generate_python t <-> no_repeats (defs t) /\ Forall settled (defs t).
Proof.
  intros [ln mp ds]. split.
  - intros E. apply (f_equal (fun l => length (flat_map (fun x => stmt_text (p_stmt x)) l))) in E. unfold generate_python in E. rewrite !generate_texts in E.
    unfold template_iter, template_after in E. cbn [t_lineno mod_py defs] in *. rewrite !texts_app, !texts_cons, !texts_app, !texts_body, !app_length in E.
    destruct (body_grows ds) as [_ B]; [apply Forall_forall; intros n _; apply node_grows|]. destruct (B ltac:(lia)) as [Q S0]. split; [exact Q|].
    clear - S0. induction ds as [|n ds IH]; constructor; [apply S0|apply IH, S0].
  - intros [Q S0]. unfold template_after. cbn [t_lineno mod_py defs] in *. replace (map mutate ds) with ds; [now rewrite mutate_body_quiet|].
    clear Q. induction S0 as [|n l B F IH]; [reflexivity|]. cbn [map]. rewrite <- IH, mutate_settled by assumption. reflexivity.
Qed.

(** ** The characters of the texts *)
Lemma absorb_incl : forall l t g, incl (absorb t g l) (t ++ written l).
Proof.
  induction l as [|n l IH]; intros t g; [cbn; rewrite app_nil_r; apply incl_refl|]. destruct n; try (apply incl_appl, incl_refl). cbn [absorb]. destruct (oseqb g guard); [|apply incl_appl, incl_refl].
  eapply incl_tran; [apply IH|]. rewrite <- app_assoc. apply incl_refl.
Qed.
Lemma written_cons : forall n l, written (n :: l) = texts (iter n) ++ written l.
Proof. intros. cbn [flat_map]. apply texts_app. Qed.
Lemma mutate_body_incl : forall l prev, incl (written (mutate_body prev l)) (written l).
Proof.
  induction l as [|n l IH]; intros prev; [apply incl_refl|].
  destruct n; cbn [mutate_body]; rewrite ?written_cons; try (apply incl_app; [apply incl_appl, incl_refl|apply incl_appr, IH]).
  apply incl_app; [|apply incl_appr, IH]. destruct (match prev with Some g0 => oseqb g0 guard | None => false end); [apply incl_appl, incl_refl|].
  cbn [iter flat_map item_text]. rewrite !app_nil_r. apply absorb_incl.
Qed.
Definition keeps (n : node) : Prop := incl (texts (iter (mutate n))) (texts (iter n)).
Lemma body_keeps : forall b, Forall keeps b -> incl (written (mutate_body None (map mutate b))) (written b).
Proof.
  intros b F. eapply incl_tran; [apply mutate_body_incl|]. induction F as [|n b A F IH]; [apply incl_refl|]. cbn [map]. rewrite !written_cons.
  apply incl_app; [apply incl_appl, A|apply incl_appr, IH].
Qed.
Lemma node_keeps : forall n, keeps n.
Proof.
  induction n using node_ind'; unfold keeps; cbn [mutate]; try apply incl_refl;
    rewrite ?tot_def, ?tot_call, ?tot_for, ?tot_case, ?tot_if, ?tot_else, ?tot_switch, ?tot_with, ?tot_attr; now apply body_keeps.
Qed.

(** ** Nothing but the texts changes *)
Inductive alike : item -> item -> Prop :=
| alike_same : forall i, alike i i
| alike_text : forall ln t t' g, alike (IText ln t g) (IText ln t' g).
Local Notation alikes := (Forall2 alike).
Lemma alikes_refl : forall l, alikes l l.
Proof. induction l; constructor; [constructor|assumption]. Qed.
Definition olike (a b : option item) : Prop := match a, b with Some i, Some j => alike i j | None, None => True | _, _ => False end.
Lemma optimize_alike : forall l l', alikes l l' -> alikes (optimize l) (optimize l').
Proof.
  assert (G : forall l l', alikes l l' -> forall a b, olike a b -> alikes (optimize_from a l) (optimize_from b l')).
  { intros l l' F. induction F as [|i j l l' A F IH]; intros a b O.
    - destruct a, b; cbn in O; try contradiction; [constructor; [exact O|constructor]|constructor].
    - assert (D : alikes (match a with Some n => n :: optimize_from (Some i) l | None => optimize_from (Some i) l end)
                         (match b with Some n => n :: optimize_from (Some j) l' | None => optimize_from (Some j) l' end)).
      { destruct a, b; cbn in O; try contradiction; [constructor; [exact O|]|]; apply IH; constructor || exact A. }
      destruct A as [i|ln t t' g].
      + destruct i as [| |ln t g|ln ps]; try exact D. cbn [optimize_from]. destruct a as [x|], b as [y|]; cbn in O; try contradiction; [|exact D].
        destruct O as [x|ln0 t0 t1 g0]; [destruct x; try exact D|]; (destruct (oseqb _ g); [apply IH; constructor|exact D]).
      + cbn [optimize_from]. destruct a as [x|], b as [y|]; cbn in O; try contradiction; [|exact D].
        destruct O as [x|ln0 t0 t1 g0]; [destruct x; try exact D|]; (destruct (oseqb _ g); [apply IH; constructor|exact D]). }
  intros l l' F. now apply G.
Qed.
Lemma mutate_body_alike : forall l prev, alikes (items l) (items (mutate_body prev l)).
Proof.
  induction l as [|n l IH]; intros prev; [constructor|].
  destruct n; cbn [mutate_body flat_map]; try (apply Forall2_app; [apply alikes_refl|apply IH]).
  apply Forall2_app; [|apply IH]. destruct (match prev with Some g0 => oseqb g0 guard | None => false end); [apply alikes_refl|]. constructor; constructor.
Qed.
Lemma alikes_trans : forall a b c, alikes a b -> alikes b c -> alikes a c.
Proof.
  intros a b c F. revert c. induction F as [|x y a b A F IH]; intros c G; inversion G; subst; [constructor|]. constructor; [|now apply IH].
  destruct A as [i|ln t t' g]; [assumption|]. inversion H1; subst; constructor.
Qed.
Definition shape (n : node) : Prop := alikes (iter n) (iter (mutate n)).
Lemma body_shape : forall b, Forall shape b -> alikes (body_iter b) (body_iter (mutate_body None (map mutate b))).
Proof.
  intros b F. apply optimize_alike. eapply alikes_trans; [|apply mutate_body_alike]. induction F as [|n b A F IH]; [constructor|]. cbn [map flat_map]. now apply Forall2_app.
Qed.
Lemma node_shape : forall n, shape n.
Proof.
  assert (C : forall b b' x y z, alikes (body_iter b) (body_iter b') -> alikes (x :: y :: body_iter b ++ z) (x :: y :: body_iter b' ++ z)).
  { intros. constructor; [constructor|]. constructor; [constructor|]. apply Forall2_app; [assumption|apply alikes_refl]. }
  assert (C1 : forall b b' x z, alikes (body_iter b) (body_iter b') -> alikes (x :: body_iter b ++ z) (x :: body_iter b' ++ z)).
  { intros. constructor; [constructor|]. apply Forall2_app; [assumption|apply alikes_refl]. }
  induction n using node_ind'; unfold shape; cbn [mutate]; try apply alikes_refl; pose proof (body_shape _ H) as B.
  - assert (O : forall b b', alikes (body_iter b) (body_iter b') ->
      alikes (match body_iter b with [] => [ILines 0 (at0 [PPass])] | b' => b' end) (match body_iter b' with [] => [ILines 0 (at0 [PPass])] | b' => b' end)).
    { intros u w F. destruct F; [apply alikes_refl|]. now constructor. }
    change (alikes (ILines ln (at0 [if i then PDecorate else PExpose; PDef d]) :: IIndent :: (match body_iter b with [] => [ILines 0 (at0 [PPass])] | b' => b' end) ++ [IDedent])
      (ILines ln (at0 [if i then PDecorate else PExpose; PDef d]) :: IIndent :: (match body_iter (mutate_body None (map mutate b)) with [] => [ILines 0 (at0 [PPass])] | b' => b' end) ++ [IDedent])).
    constructor; [constructor|]. constructor; [constructor|]. apply Forall2_app; [now apply O|apply alikes_refl].
  - exact (C _ _ _ _ _ B).
  - exact (C _ _ _ _ _ B).
  - exact (C1 _ _ _ _ B).
  - exact (C1 _ _ _ _ B).
  - exact (C _ _ _ _ _ B).
  - exact (C _ _ _ _ _ B).
  - exact (C _ _ _ _ _ B).
  - set (attr := fun v ln gen => ILines ln (at0 [PDefGen gen]) :: IIndent :: (match v with [] => [IText 0 [] None] | _ => body_iter v end) ++
        [IDedent; ILines 0 (at0 [PCollect gen; PForAttr x a gen m; PYieldVar x])]).
    assert (A : forall ln gen, alikes (attr v ln gen) (attr (mutate_body None (map mutate v)) ln gen)).
    { intros l0 g0. unfold attr. constructor; [constructor|]. constructor; [constructor|]. apply Forall2_app; [|apply alikes_refl].
      destruct v as [|n v]; [apply alikes_refl|]. destruct (mutate_body None (map mutate (n :: v))) as [|n' v'] eqn:E; [|exact B].
      cbn [map mutate_body] in E. destruct (mutate n); discriminate. }
    change (alikes (match truthy_guard g with Some c => ILines 0 (at0 [PIf c]) :: IIndent :: optimize (attr v 0 gen2) ++ [IDedent] | None => attr v ln gen end)
      (match truthy_guard g with Some c => ILines 0 (at0 [PIf c]) :: IIndent :: optimize (attr (mutate_body None (map mutate v)) 0 gen2) ++ [IDedent] | None => attr (mutate_body None (map mutate v)) ln gen end)).
    destruct (truthy_guard g); [|apply A]. constructor; [constructor|]. constructor; [constructor|]. apply Forall2_app; [apply optimize_alike, A|apply alikes_refl].
Qed.

Inductive like : pyline -> pyline -> Prop :=
| like_same : forall l, like l l
| like_text : forall i ln g t t', like (PyLine i ln (PText g t)) (PyLine i ln (PText g t')).
Lemma generate_like : forall a b, alikes a b -> forall n, Forall2 like (generate_from n a) (generate_from n b).
Proof.
  intros a b F. assert (R : forall l, Forall2 like l l) by (induction l; constructor; [constructor|assumption]).
  induction F as [|i j a b A F IH]; intros n; [constructor|]. destruct A as [i|ln t t' g].
  - destruct i; cbn [generate_from]; [apply IH|apply IH|constructor; [constructor|apply IH]|apply Forall2_app; [apply R|apply IH]].
  - cbn [generate_from]. constructor; [constructor|apply IH].
Qed.
Local Notation good := (Forall (fun c => c < 1114112)%N).
Local Notation texts_good l := (good (flat_map (fun x => stmt_text (p_stmt x)) l)).

(** ** New names *)
Definition no_text (p : pstmt) : Prop := match p with PText _ _ => False | _ => True end.
Definition other (p q : nat * pstmt) : Prop := fst p = fst q /\ (snd p = snd q \/ (no_text (snd p) /\ no_text (snd q))).
Inductive named : item -> item -> Prop :=
| named_same : forall i, named i i
| named_lines : forall ln ps qs, Forall2 other ps qs -> named (ILines ln ps) (ILines ln qs).
Local Notation nameds := (Forall2 named).
Lemma nameds_refl : forall l, nameds l l.
Proof. induction l; constructor; [constructor|assumption]. Qed.
Lemma optimize_named : forall l l', nameds l l' -> nameds (optimize l) (optimize l').
Proof.
  assert (G : forall l l', nameds l l' -> forall a b, (match a, b with Some i, Some j => named i j | None, None => True | _, _ => False end) ->
    nameds (optimize_from a l) (optimize_from b l')).
  { intros l l' F. induction F as [|i j l l' A F IH]; intros a b O.
    - destruct a, b; cbn in O; try contradiction; [constructor; [exact O|constructor]|constructor].
    - assert (D : nameds (match a with Some n => n :: optimize_from (Some i) l | None => optimize_from (Some i) l end)
                         (match b with Some n => n :: optimize_from (Some j) l' | None => optimize_from (Some j) l' end)).
      { destruct a, b; cbn in O; try contradiction; [constructor; [exact O|]|]; apply IH; exact A. }
      destruct A as [i|ln ps qs P]; [|exact D]. destruct i as [| |ln t g|ln ps]; try exact D. cbn [optimize_from]. destruct a as [x|], b as [y|]; cbn in O; try contradiction; [|exact D].
      destruct O as [x|ln0 ps qs P]; [destruct x; try exact D|exact D]. destruct (oseqb _ g); [apply IH; constructor|exact D]. }
  intros l l' F. now apply G.
Qed.
Definition renames (draw : str -> str) (n : node) : Prop := nameds (iter n) (iter (redraw draw n)).
Lemma body_renames : forall draw b, Forall (renames draw) b -> nameds (body_iter b) (body_iter (map (redraw draw) b)).
Proof. intros draw b F. apply optimize_named. induction F as [|n b A F IH]; [constructor|]. cbn [map flat_map]. now apply Forall2_app. Qed.
Lemma others : forall k ps qs, Forall no_text ps -> Forall no_text qs -> length ps = length qs -> Forall2 other (map (fun p => (k, p)) ps) (map (fun p => (k, p)) qs).
Proof.
  intros k ps. induction ps as [|p ps IH]; intros [|q qs] A B E; try discriminate; [constructor|]. cbn [map]. apply Forall_cons_iff in A as [A1 A2]. apply Forall_cons_iff in B as [B1 B2].
  constructor; [split; [reflexivity|right; now split]|]. apply IH; [assumption|assumption|now injection E].
Qed.
Lemma node_renames : forall draw n, renames draw n.
Proof.
  intros draw.
  assert (C : forall b b' x y z, nameds (body_iter b) (body_iter b') -> nameds (x :: y :: body_iter b ++ z) (x :: y :: body_iter b' ++ z)).
  { intros. constructor; [constructor|]. constructor; [constructor|]. apply Forall2_app; [assumption|apply nameds_refl]. }
  assert (C1 : forall b b' x z, nameds (body_iter b) (body_iter b') -> nameds (x :: body_iter b ++ z) (x :: body_iter b' ++ z)).
  { intros. constructor; [constructor|]. apply Forall2_app; [assumption|apply nameds_refl]. }
  induction n using node_ind'; unfold renames; cbn [redraw]; try apply nameds_refl; try pose proof (body_renames draw _ H) as B.
  - assert (O : forall b b', nameds (body_iter b) (body_iter b') ->
      nameds (match body_iter b with [] => [ILines 0 (at0 [PPass])] | b' => b' end) (match body_iter b' with [] => [ILines 0 (at0 [PPass])] | b' => b' end)).
    { intros u w F. destruct F; [apply nameds_refl|]. now constructor. }
    change (nameds (ILines ln (at0 [if i then PDecorate else PExpose; PDef d]) :: IIndent :: (match body_iter b with [] => [ILines 0 (at0 [PPass])] | b' => b' end) ++ [IDedent])
      (ILines ln (at0 [if i then PDecorate else PExpose; PDef d]) :: IIndent :: (match body_iter (map (redraw draw) b) with [] => [ILines 0 (at0 [PPass])] | b' => b' end) ++ [IDedent])).
    constructor; [constructor|]. constructor; [constructor|]. apply Forall2_app; [now apply O|apply nameds_refl].
  - exact (C _ _ _ _ _ B).
  - exact (C _ _ _ _ _ B).
  - exact (C1 _ _ _ _ B).
  - exact (C1 _ _ _ _ B).
  - exact (C _ _ _ _ _ B).
  - exact (C _ _ _ _ _ B).
  - exact (C _ _ _ _ _ B).
  - set (attr := fun v ln gen x => ILines ln (at0 [PDefGen gen]) :: IIndent :: (match v with [] => [IText 0 [] None] | _ => body_iter v end) ++
        [IDedent; ILines 0 (at0 [PCollect gen; PForAttr x a gen m; PYieldVar x])]).
    assert (A : forall ln gen gen' y, nameds (attr v ln gen x) (attr (map (redraw draw) v) ln gen' y)).
    { intros l0 g0 g1 y. unfold attr. constructor; [constructor; apply others; repeat constructor|]. constructor; [constructor|]. apply Forall2_app.
      - destruct v as [|n v]; [apply nameds_refl|exact B].
      - constructor; [constructor|]. constructor; [|constructor]. constructor. apply others; repeat constructor. }
    change (nameds (match truthy_guard g with Some c => ILines 0 (at0 [PIf c]) :: IIndent :: optimize (attr v 0 gen2 x) ++ [IDedent] | None => attr v ln gen x end)
      (match truthy_guard g with Some c => ILines 0 (at0 [PIf c]) :: IIndent :: optimize (attr (map (redraw draw) v) 0 (draw gen2) (draw x)) ++ [IDedent] | None => attr (map (redraw draw) v) ln gen (draw x) end)).
    destruct (truthy_guard g); [|apply A]. constructor; [constructor|]. constructor; [constructor|]. apply Forall2_app; [apply optimize_named, A|apply nameds_refl].
  - cbn [iter]. destruct (truthy_guard _); constructor; try constructor.
    + constructor; [split; [reflexivity|now left]|]. apply others; repeat constructor.
    + apply others; repeat constructor.
Qed.
Definition nline (x y : pyline) : Prop := x = y \/ (no_text (p_stmt x) /\ no_text (p_stmt y)).
Lemma generate_named : forall a b, nameds a b -> forall n, Forall2 nline (generate_from n a) (generate_from n b).
Proof.
  intros a b F. assert (R : forall l, Forall2 nline l l) by (induction l; constructor; [now left|assumption]).
  induction F as [|i j a b A F IH]; intros n; [constructor|]. destruct A as [i|ln ps qs P].
  - destruct i; cbn [generate_from]; [apply IH|apply IH|constructor; [now left|apply IH]|apply Forall2_app; [apply R|apply IH]].
  - cbn [generate_from]. apply Forall2_app; [|apply IH]. clear - P. induction P as [|p q ps qs [E O] P IHP]; [constructor|]. cbn [map]. constructor; [|exact IHP].
    unfold nline. cbn [p_stmt]. rewrite E. destruct O as [->|O]; [now left|now right].
Qed.

(** ** The printed program *)
Lemma printed_inj : forall P a b, Forall2 like a b -> forall c, Forall2 nline b c -> texts_good a -> texts_good b ->
  map (line_str P) c = map (line_str P) a -> a = b.
Proof.
  intros P a b F. induction F as [|x y a b A F IH]; intros c N0 Ga Gb E; [reflexivity|]. inversion N0 as [|? z ? c' N1 N2]; subst. cbn [map flat_map] in *.
  apply Forall_app in Ga as [G1 G2]. apply Forall_app in Gb as [G3 G4]. assert (E1 : line_str P z = line_str P x) by congruence. assert (E2 : map (line_str P) c' = map (line_str P) a) by congruence.
  rewrite (IH c') by assumption. destruct A as [l|i ln g t t']; [reflexivity|]. destruct N1 as [<-|[N1 _]]; [|destruct N1].
  assert (S0 : forall t, line_str P (PyLine i ln (PText g t)) = (spaces i ++ match g with Some g => L "if " ++ g ++ L ": " | None => [] end ++ L "yield ") ++ repr P t ++ []).
  { intros u. unfold line_str. cbn [p_indent p_stmt show]. unfold show_guarded. rewrite app_nil_r. destruct g; rewrite <- ?app_assoc; reflexivity. }
  rewrite !S0 in E1. apply app_inv_head in E1. cbn [p_stmt stmt_text] in G1, G3.
  apply (f_equal read_literal) in E1. rewrite !read_literal_repr in E1 by assumption.
  assert (t = t') as <- by congruence. reflexivity.
Qed.
Theorem printed_twice : forall P draw t, texts_good (generate_python t) ->
  map (line_str P) (generate_python (template_again draw t)) = map (line_str P) (generate_python t) -> no_repeats (defs t) /\ Forall settled (defs t).
Proof.
  intros P draw t G E. apply twice. symmetry. revert E. apply printed_inj.
  - apply generate_like. destruct t as [ln mp ds]. unfold template_iter, template_after. cbn [t_lineno mod_py defs].
    apply Forall2_app; [apply alikes_refl|]. constructor; [constructor|]. constructor; [constructor|]. apply Forall2_app; [|apply alikes_refl].
    apply body_shape, Forall_forall. intros n _. apply node_shape.
  - apply generate_named. unfold template_again. destruct (template_after t) as [ln mp ds]. unfold template_iter, template_redrawn. cbn [t_lineno mod_py defs].
    apply Forall2_app; [apply nameds_refl|]. constructor; [constructor|]. constructor; [constructor|]. apply Forall2_app; [|apply nameds_refl].
    apply body_renames, Forall_forall. intros n _. apply node_renames.
  - exact G.
  - unfold generate_python in *. rewrite generate_texts in *. rewrite Forall_forall in *. intros c I. apply G. clear G. revert c I. change (incl (texts (template_iter (template_after t))) (texts (template_iter t))).
    destruct t as [ln mp ds]. unfold template_iter, template_after. cbn [t_lineno mod_py defs]. rewrite !texts_app, !texts_cons, !texts_app, !texts_body.
    repeat (apply incl_app; [apply incl_appl, incl_refl|apply incl_appr]). apply incl_app; [|apply incl_appr, incl_refl]. apply incl_appl.
    apply body_keeps, Forall_forall. intros n _. apply node_keeps.
Qed.
Lemma settled_after : forall t, no_repeats (defs t) /\ Forall settled (defs t) -> template_after t = t.
Proof.
  intros [ln mp ds] [Q S0]. unfold template_after. cbn [t_lineno mod_py defs] in *. replace (map mutate ds) with ds; [now rewrite mutate_body_quiet|].
  clear Q. induction S0 as [|n l B F IH]; [reflexivity|]. cbn [map]. rewrite <- IH, mutate_settled by assumption. reflexivity.
Qed.
Lemma redraw_drawn : forall draw n, drawn (redraw draw n) = map draw (drawn n).
Proof.
  intros draw. assert (B : forall b, Forall (fun n => drawn (redraw draw n) = map draw (drawn n)) b -> flat_map drawn (map (redraw draw) b) = map draw (flat_map drawn b)).
  { intros b F. induction F as [|n b A F IH]; [reflexivity|]. cbn [map flat_map]. now rewrite map_app, A, IH. }
  induction n using node_ind'; cbn [redraw drawn]; try reflexivity; try (now apply B). cbn [map]. now rewrite B.
Qed.
Lemma mutate_drawn : forall n, drawn (mutate n) = drawn n.
Proof.
  assert (C : forall l prev, flat_map drawn (mutate_body prev l) = flat_map drawn l).
  { induction l as [|n l IH]; intros prev; [reflexivity|]. destruct n; cbn [mutate_body flat_map]; rewrite IH; try reflexivity.
    now destruct (match prev with Some g0 => oseqb g0 guard | None => false end). }
  assert (B : forall b, Forall (fun n => drawn (mutate n) = drawn n) b -> flat_map drawn (mutate_body None (map mutate b)) = flat_map drawn b).
  { intros b F. rewrite C. induction F as [|n b A F IH]; [reflexivity|]. cbn [map flat_map]. now rewrite A, IH. }
  induction n using node_ind'; cbn [mutate drawn]; try reflexivity; now rewrite B.
Qed.
Lemma again_drawn : forall draw t, flat_map drawn (defs (template_again draw t)) = map draw (flat_map drawn (defs t)).
Proof.
  intros draw [ln mp ds]. unfold template_again, template_redrawn, template_after. cbn [defs].
  assert (C : forall l prev, flat_map drawn (mutate_body prev l) = flat_map drawn l).
  { induction l as [|n l IH]; intros prev; [reflexivity|]. destruct n; cbn [mutate_body flat_map]; rewrite IH; try reflexivity.
    now destruct (match prev with Some g0 => oseqb g0 guard | None => false end). }
  transitivity (map draw (flat_map drawn (mutate_body None (map mutate ds)))).
  - generalize (mutate_body None (map mutate ds)). induction l as [|n l IH]; [reflexivity|]. cbn [map flat_map]. now rewrite map_app, redraw_drawn, IH.
  - rewrite C. f_equal. induction ds as [|n ds IH]; [reflexivity|]. cbn [map flat_map]. now rewrite mutate_drawn, IH.
Qed.
