(** * Where the code of a document stands in the generated code *)

From Coq Require Import Ascii String List NArith ZArith Bool Lia Arith Permutation Sorted.
From Verif Require Import PyStr PyStrLemmas M_Values S_Values M_IR M_Exec S_IR M_Text M_XText S_XText M_Entities M_Dom M_XCompile S_XDoc S_XFun S_Lines
  P_Values P_IR P_Dom P_XText P_XText2 P_XDoc P_XDoc2 P_XFun P_XFun2 P_Lines1.
Import ListNotations.
Open Scope nat_scope.
Open Scope list_scope.

Notation items := (flat_map iter).
Lemma items_app : forall a b, items (a ++ b) = items a ++ items b.
Proof. intros. apply flat_map_app. Qed.
Lemma fits_nil : forall k, fits k [] []. Proof. intros k. apply fits_quiet. constructor. Qed.
Lemma fits_then : forall k l s tail, fits k l s -> Forall (fun x : site => fst x <= k /\ snd x = None) (sites_of tail) -> fits k (l ++ tail) s.
Proof. intros k l s tail F Q. rewrite <- (app_nil_r s). apply fits_app; [exact F|now apply fits_quiet]. Qed.
Lemma fits_after : forall k l s head, fits k l s -> Forall (fun x : site => fst x <= k /\ snd x = None) (sites_of head) -> fits k (head ++ l) s.
Proof. intros k l s head F Q. change s with ([] ++ s). apply fits_app; [now apply fits_quiet|exact F]. Qed.
Lemma fits_text : forall ln t g l s, fits ln l s -> fits 0 (IText ln t g :: l) ((ln, None) :: s).
Proof.
  intros ln t g l s F m hi _ T. apply track_plain in T as (m' & A & B & T). destruct (F m' hi B T) as [F1 F2]. cbn [flat_map item_sites app code_sites].
  split; [econstructor; eassumption|exact F2].
Qed.

(** ** Nodes *)
Lemma fits_head : forall ln p l s, fits ln l s -> fits 0 (ILines ln (at0 [p]) :: l) ((ln, code_of p) :: s).
Proof. intros ln p l s F. apply (fits_lines ln [p]); [exact F|discriminate]. Qed.
Lemma fits_body : forall k body s, fits k (items body) s -> fits k (body_iter body) s.
Proof. intros. now apply fits_optimize. Qed.
Lemma quiet0 : forall ps k, Forall (fun x : site => fst x <= k /\ snd x = None) (item_sites (ILines 0 ps)).
Proof. intros ps k. cbn [item_sites]. induction ps; cbn [map]; constructor; [cbn; split; [lia|reflexivity]|assumption]. Qed.
Lemma wrapped : forall ln p tail body s, fits 0 (items body) s -> Forall (fun x : site => fst x <= 0 /\ snd x = None) (sites_of tail) ->
  fits 0 (ILines ln (at0 [p]) :: IIndent :: body_iter body ++ tail) ((ln, code_of p) :: s).
Proof.
  intros ln p tail body s F Q. apply fits_head. change (fits ln (body_iter body ++ tail) s). apply fits_then.
  - apply (fits_weaken 0); [lia|]. now apply fits_body.
  - eapply Forall_impl; [|exact Q]. cbn. intros x [A B]. split; [lia|exact B].
Qed.
Lemma fits_for : forall ln d body s, fits 0 (items body) s -> fits 0 (iter (NFor ln d body)) ((ln, Some d) :: s).
Proof. intros. apply (wrapped ln (PFor d) [IDedent] body s); [assumption|constructor]. Qed.
Lemma fits_if : forall ln d body s, fits 0 (items body) s -> fits 0 (iter (NIf ln d body)) ((ln, Some d) :: s).
Proof. intros. apply (wrapped ln (PIf d) [IDedent] body s); [assumption|constructor]. Qed.
Lemma fits_case : forall ln d body s, fits 0 (items body) s -> fits 0 (iter (NCase ln d body)) ((ln, Some d) :: s).
Proof. intros. apply (wrapped ln (PCase d) [IDedent] body s); [assumption|constructor]. Qed.
Lemma fits_else : forall ln body s, fits 0 (items body) s -> fits 0 (iter (NElse ln body)) ((ln, None) :: s).
Proof. intros. apply (wrapped ln PElse [IDedent] body s); [assumption|constructor]. Qed.
Lemma fits_call : forall ln d c body s, fits 0 (items body) s -> fits 0 (iter (NCall ln d c body)) ((ln, None) :: s).
Proof.
  intros ln d c body s F m hi Lm T. apply track_plain in T as (m' & A & B & T).
  assert (K : fits ln (body_iter body ++ [IDedent; ILines 0 (at0 [PYield c])]) s).
  { apply fits_then; [apply (fits_weaken 0); [lia|now apply fits_body]|]. apply (quiet0 (at0 [PYield c])). }
  destruct (K m' hi B T) as [K1 K2].
  change (sites_of (iter (NCall ln d c body))) with
    (item_sites (ILines ln (at0 [PDecorate; PDef d])) ++ sites_of (body_iter body ++ [IDedent; ILines 0 (at0 [PYield c])])).
  assert (E : item_sites (ILines ln (at0 [PDecorate; PDef d])) = [(ln, None); (ln, None)]) by (destruct ln; reflexivity).
  rewrite E. cbn [app code_sites]. split; [|exact K2]. apply (tr_plain m m'); [exact A|exact B|]. now apply (tr_plain m' m').
Qed.
Lemma fits_with : forall ln vars body s, fits 0 (items body) s ->
  fits 0 (iter (NWith ln vars body)) ((ln, None) :: map (fun kv => (ln, Some (fst kv ++ L " = " ++ snd kv))) vars ++ s).
Proof.
  intros ln vars body s F.
  assert (K : fits ln (body_iter body ++ [ILines 0 (at0 [PPopWith (map fst vars)])]) s).
  { apply fits_then; [apply (fits_weaken 0); [lia|now apply fits_body]|]. apply (quiet0 (at0 [PPopWith (map fst vars)])). }
  pose proof (fits_lines ln (PPushWith (map fst vars) :: map (fun kv => PAssign (fst kv) (snd kv)) vars) _ _ K ltac:(discriminate)) as R.
  cbn [map] in R. rewrite map_map in R. exact R.
Qed.
Lemma fits_switch : forall ln d body s, fits 0 (items body) s -> fits 0 (iter (NSwitch ln d body)) ((ln, Some d) :: s).
Proof.
  intros ln d body s F m hi Lm T. apply track_code in T as (A & B & T).
  assert (K : fits ln (body_iter body ++ [ILines 0 (at0 [PPopSwitch])]) s).
  { apply fits_then; [apply (fits_weaken 0); [lia|now apply fits_body]|]. apply (quiet0 (at0 [PPopSwitch])). }
  destruct (K ln hi (le_n ln) T) as [K1 K2].
  change (sites_of (iter (NSwitch ln d body))) with
    (item_sites (ILines ln (at0 [PPushSwitch d; PIfFalse])) ++ sites_of (body_iter body ++ [ILines 0 (at0 [PPopSwitch])])).
  assert (E : item_sites (ILines ln (at0 [PPushSwitch d; PIfFalse])) = [(ln, Some d); (ln, None)]) by (destruct ln; [congruence|reflexivity]).
  rewrite E. cbn [app code_sites]. split; [|now rewrite K2]. apply tr_code; [exact A|exact B|]. now apply (tr_plain ln ln).
Qed.
Lemma fits_one : forall ln p, fits 0 [ILines ln (at0 [p])] [(ln, code_of p)].
Proof. intros. apply fits_head. apply fits_nil. Qed.
Lemma fits_expr : forall ln e safe, fits 0 (iter (NExpr ln e safe)) [(ln, Some e)].
Proof. intros ln e safe. pose proof (fits_one ln (if safe then PYield e else PEscape e)) as F. now destruct safe. Qed.
Lemma fits_trans : forall ln t g, fits 0 (iter (NTrans ln t g)) [(ln, None)].
Proof. intros ln t g. pose proof (fits_one ln (trans_stmt t g)) as F. assert (E : code_of (trans_stmt t g) = None) by (unfold trans_stmt; now destruct (strip t)). now rewrite E in F. Qed.
Lemma fits_ntext : forall ln t g, fits 0 (iter (NText ln t g)) [(ln, None)].
Proof. intros. apply fits_text. apply fits_nil. Qed.
Lemma fits_python : forall ln lines b, fits 0 (iter (NPython ln lines b)) (map (fun x => (ln, Some x)) lines).
Proof.
  intros ln lines b. destruct lines as [|x lines]; [apply fits_quiet; constructor|].
  pose proof (fits_lines ln (map PCode (x :: lines)) [] [] (fits_nil ln) ltac:(discriminate)) as F. rewrite app_nil_r, map_map in F. exact F.
Qed.
Lemma fits_pieces : forall k ps, fits 0 (items (map (piece_node k) ps)) (map piece_site ps).
Proof.
  intros k ps. induction ps as [|p ps IH]; [apply fits_nil|]. cbn [map flat_map].
  change (piece_site p :: map piece_site ps) with ([piece_site p] ++ map piece_site ps). apply fits_app; [|exact IH].
  destruct p as [ln t|ln e]; cbn [piece_node piece_site]; [|apply fits_expr].
  destruct k; try apply fits_ntext. unfold make_text_node. destruct (strip t); [apply fits_ntext|apply fits_trans].
Qed.
Lemma fits_attr : forall ln a ps g mode g1 g2 x, fits ln (iter (NAttr ln a (map (piece_node TK_attr) ps) g mode g1 g2 x)) (map piece_site ps).
Proof.
  intros ln a ps g mode g1 g2 x.
  set (value := map (piece_node TK_attr) ps).
  assert (K : forall n gen, n = 0 \/ n = ln -> fits ln (ILines n (at0 [PDefGen gen]) :: IIndent ::
      (match value with [] => [IText 0 [] None] | _ => body_iter value end) ++
      [IDedent; ILines 0 (at0 [PCollect gen; PForAttr x a gen mode; PYieldVar x])]) (map piece_site ps)).
  { intros n gen Hn. apply (fits_after ln (_ ++ _) _ [ILines n (at0 [PDefGen gen]); IIndent]).
    - apply fits_then; [|apply (quiet0 (at0 [PCollect gen; PForAttr x a gen mode; PYieldVar x]))].
      destruct ps as [|p ps']; [apply fits_quiet; repeat constructor; cbn; lia|].
      unfold value. cbn [map]. apply (fits_weaken 0); [lia|]. apply (fits_body 0 (map (piece_node TK_attr) (p :: ps'))). apply fits_pieces.
    - destruct Hn as [->| ->]; [repeat constructor; cbn; lia|]. destruct ln; repeat constructor; cbn; lia. }
  assert (E : iter (NAttr ln a value g mode g1 g2 x) =
    match truthy_guard g with
    | Some c => ILines 0 (at0 [PIf c]) :: IIndent :: optimize (ILines 0 (at0 [PDefGen g2]) :: IIndent ::
        (match value with [] => [IText 0 [] None] | _ => body_iter value end) ++
        [IDedent; ILines 0 (at0 [PCollect g2; PForAttr x a g2 mode; PYieldVar x])]) ++ [IDedent]
    | None => ILines ln (at0 [PDefGen g1]) :: IIndent ::
        (match value with [] => [IText 0 [] None] | _ => body_iter value end) ++
        [IDedent; ILines 0 (at0 [PCollect g1; PForAttr x a g1 mode; PYieldVar x])]
    end) by reflexivity.
  rewrite E. destruct (truthy_guard g) as [c|].
  - apply (fits_after ln (_ ++ _) _ [ILines 0 (at0 [PIf c]); IIndent]); [|repeat constructor; cbn; lia].
    apply fits_then; [|constructor]. apply fits_optimize. apply K. now left.
  - apply K. now right.
Qed.
Lemma fits_attrs_node : forall ln e g mode x, fits 0 (iter (NAttrs ln e g mode x)) (match truthy_guard g with Some c => [(ln, Some c); (ln, Some e)] | None => [(ln, Some e)] end).
Proof.
  intros ln e g mode x. cbn [iter]. cbv zeta. destruct (truthy_guard g) as [c|].
  - intros m hi Lm T. apply track_code in T as (A & B & T). apply track_code in T as (A2 & B2 & T).
    assert (E : sites_of [ILines ln ((0, PIf c) :: map (fun p => (4, p)) [PForAttrs x e mode; PYieldVar x])] = [(ln, Some c); (ln, Some e); (ln, None)]) by (destruct ln; [congruence|reflexivity]).
    rewrite E. split; [|reflexivity]. apply tr_code; [exact A|exact B|]. apply tr_code; [exact A2|exact B2|]. now apply (tr_plain ln ln).
  - intros m hi Lm T. apply track_code in T as (A & B & T).
    assert (E : sites_of [ILines ln (at0 [PForAttrs x e mode; PYieldVar x])] = [(ln, Some e); (ln, None)]) by (destruct ln; [congruence|reflexivity]).
    rewrite E. split; [|reflexivity]. apply tr_code; [exact A|exact B|]. now apply (tr_plain ln ln).
Qed.
(** [switch_body] only drops texts. *)
Lemma switch_fits : forall body b2 s, switch_body body = Ok b2 -> fits 0 (items body) s -> fits 0 (items b2) s.
Proof.
  intros body b2 s Eb F.
  assert (G : forall body b2, switch_body body = Ok b2 -> code_sites (sites_of (items b2)) = code_sites (sites_of (items body)) /\
     forall m hi, track m (sites_of (items body)) hi -> track m (sites_of (items b2)) hi).
  { clear. induction body as [|n body IH]; intros b2 Eb; cbn [switch_body] in Eb; [assert (b2 = []) as -> by congruence; split; auto|].
    destruct (ir_text n) as [t|] eqn:Et.
    - destruct (strip t) eqn:Es; [|discriminate]. destruct (IH _ Eb) as [I1 I2]. cbn [flat_map]. rewrite sites_app, code_app.
      assert (Q : exists ln, sites_of (iter n) = [(ln, None)]).
      { destruct n; try discriminate; cbn [ir_text] in Et; assert (text = t) by congruence; subst; eexists; cbn [iter flat_map item_sites app]; [reflexivity|].
        unfold trans_stmt. rewrite Es. cbn [at0 map snd code_of app]. now destruct ln. }
      destruct Q as (ln & Q). rewrite Q. cbn [code_sites app]. split; [exact I1|]. intros m hi T. apply track_plain in T as (m' & A & B & T). eapply track_lower; [|exact A]. now apply I2.
    - destruct (is_case_or_else n); [|discriminate]. destruct (switch_body body) as [r|] eqn:Er; [|discriminate]. cbn [rmap] in Eb. assert (b2 = n :: r) by congruence. subst b2.
      destruct (IH _ eq_refl) as [I1 I2]. cbn [flat_map]. rewrite !sites_app, !code_app, I1. split; [reflexivity|].
      intros m hi T. apply track_split in T as (mid & T1 & T2). eapply track_app; [exact T1|]. now apply I2. }
  destruct (G _ _ Eb) as [G1 G2]. intros m hi Lm T. destruct (F m hi Lm T) as [F1 F2]. split; [now apply G2|congruence].
Qed.
