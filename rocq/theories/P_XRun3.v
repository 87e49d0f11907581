(** * Documents in the language of whole templates: classes *)

From Coq Require Import Ascii String List Arith NArith ZArith Bool Lia Permutation Sorted.
From Verif Require Import PyStr PyStrLemmas M_Values S_Values M_IR P_IR M_Template M_Text M_XText S_XText P_XText M_Entities S_Entities M_Doctype M_Dom M_XCompile
  S_XDoc S_XFun P_XDoc P_XDoc2 P_XFun P_XFun2 M_Run S_Run P_Run4 P_Run5 P_Run8 M_XRun S_XRun P_XRun1 P_XRun2.
From Verif Require M_Exec S_Exec P_Dom2 P_XText2 P_Run12.
Import ListNotations.
Open Scope list_scope.

(** ** Functions that are declared several times *)
Lemma adds_nodup : forall fl l, NoDup (map fst l) -> NoDup (map fst (adds fl l)).
Proof. induction fl as [|[k v] fl IH]; intros l ND; [exact ND|]. cbn [adds fold_left fst snd]. apply IH. now apply nodup_set. Qed.
Lemma adds_keys : forall fl l, map fst (adds fl l) = map fst l ++ distinct (map fst l) (map fst fl).
Proof.
  induction fl as [|[k v] fl IH]; intros l; [cbn; now rewrite app_nil_r|]. change (adds ((k, v) :: fl) l) with (adds fl (set_function k v l)).
  rewrite IH, P_XFun2.keys_set. cbn [map fst distinct]. destruct (smem k (map fst l)) eqn:E; [reflexivity|].
  rewrite <- app_assoc. cbn [app]. f_equal. f_equal. apply distinct_seen. intros k'. rewrite in_app_iff. cbn [In]. tauto.
Qed.
Lemma adds_last : forall fl l, NoDup (map fst l) -> forall k v, In (k, v) (adds fl l) ->
  (In (k, v) l /\ ~ In k (map fst fl)) \/ exists f1 f2, fl = f1 ++ (k, v) :: f2 /\ ~ In k (map fst f2).
Proof.
  induction fl as [|[k0 v0] fl IH]; intros l ND k v I1; [left; split; [exact I1|intros []]|].
  change (adds ((k0, v0) :: fl) l) with (adds fl (set_function k0 v0 l)) in I1.
  destruct (IH _ (nodup_set k0 v0 l ND) k v I1) as [[I2 N2]|(f1 & f2 & -> & N2)].
  - apply in_set in I2 as [[-> ->]|[Ne I2]]; [|left; split; [exact I2|]|exact ND].
    + right. exists [], fl. split; [reflexivity|exact N2].
    + cbn [map fst In]. intros [E|I3]; [congruence|contradiction].
  - right. exists ((k0, v0) :: f1), f2. split; [reflexivity|exact N2].
Qed.

(** ** The class of a document *)
Lemma functions_match : forall gen (l : list (str * list node)),
  Forall (fun kv => rnameds gen (snd kv) /\ exists b, structure (snd kv) = Some b /\ solid (or_pass b)) l ->
  exists l', Forall2 (function_of gen) l l' /\ functions_of (map (fun kv => NDef 0 false (fst kv) (snd kv)) l) = Some (map with_name l').
Proof.
  intros gen l F. induction F as [|[k v] l (Nv & b & Sb & Sd) F (l' & R & E)]; [exists []; split; [constructor|reflexivity]|].
  exists ((k, or_pass b) :: l'). split.
  - constructor; [|exact R]. split; [reflexivity|]. split; [exact Nv|]. exists b. split; [exact Sb|split; [reflexivity|exact Sd]].
  - cbn [map functions_of fst snd] in *. rewrite Sb. cbn [S_Exec.obind]. rewrite (solid_some _ Sd). cbn [S_Exec.obind]. rewrite E. reflexivity.
Qed.
Lemma match_keys : forall gen l l', Forall2 (function_of gen) l l' -> map fst l = map fst l'.
Proof. intros gen l l' F. induction F as [|kv db l l' (E & _) F IH]; [reflexivity|]. cbn [map]. now rewrite E, IH. Qed.
Lemma match_body : forall gen k v b b', function_of gen (k, v) (k, b) -> function_of gen (k, v) (k, b') -> b = b'.
Proof. intros gen k v b b' (_ & _ & c & S1 & E1 & _) (_ & _ & c' & S2 & E2 & _). cbn [fst snd] in *. congruence. Qed.
Lemma match_in : forall gen l l', Forall2 (function_of gen) l l' -> forall db, In db l' -> exists v, In (fst db, v) l /\ function_of gen (fst db, v) db.
Proof.
  intros gen l l' F. induction F as [|[k v] db l l' H F IH]; intros db' I1; [destruct I1|]. destruct I1 as [->|I1].
  - exists v. pose proof H as (E & _). cbn [fst] in E. subst k. split; [now left|exact H].
  - destruct (IH _ I1) as (v' & I2 & H'). exists v'. split; [now right|exact H'].
Qed.

Section Class.
Variable compile : str -> compiled.
Variable helper : nat -> str.
Variable gen : str -> Prop.
Hypothesis helper_gen : forall i, gen (helper i).
Variable py : python.

Lemma class_compiles : forall fl fs body b, Forall2 (function_of gen) fl (functions fs) ->
  structure body = Some b -> rnameds gen body -> solid (or_pass b) ->
  exists l, final_functions (Reading b (functions fs) (modules fs)) l /\
    functions_of (map (fun kv => NDef 0 false (fst kv) (snd kv)) (set_function main_decl body (adds fl [(main_decl, [])]))) = Some (map with_name l) /\
    (user_reading py gen (Reading b (functions fs) (modules fs)) ->
     Forall (well_named py gen) (map (fun kv => NDef 0 false (fst kv) (snd kv)) (set_function main_decl body (adds fl [(main_decl, [])])))).
Proof.
  intros fl fs body b F Sb Nb Sd. set (r := Reading b (functions fs) (modules fs)). set (funs0 := adds fl [(main_decl, [])]). set (funs := set_function main_decl body funs0).
  assert (ND1 : NoDup (map fst [(main_decl, @nil node)])) by (repeat constructor; intros []).
  assert (ND : NoDup (map fst funs0)) by (now apply adds_nodup).
  assert (Keys : map fst funs = distinct [] (L "__main__()" :: map fst (functions fs))).
  { unfold funs. rewrite P_XFun2.keys_set. unfold funs0. rewrite adds_keys. cbn [map fst app]. match goal with |- context [smem ?k ?l] => assert (Hk : smem k l = true) by (apply smem_In; now left); rewrite Hk end.
    rewrite (match_keys gen _ _ F). reflexivity. }
  assert (Each : forall k v, In (k, v) funs -> (k = main_decl /\ v = body) \/
    (k <> main_decl /\ exists f1 f2, fl = f1 ++ (k, v) :: f2 /\ ~ In k (map fst f2))).
  { intros k v I1. unfold funs in I1. apply in_set in I1; [|exact ND]. destruct I1 as [[-> ->]|[Ne I1]]; [now left|right]. split; [exact Ne|].
    unfold funs0 in I1. apply adds_last in I1 as [[[E1|[]] _]|H]; [congruence|exact H|exact ND1]. }
  assert (Good : Forall (fun kv => rnameds gen (snd kv) /\ exists b, structure (snd kv) = Some b /\ solid (or_pass b)) funs).
  { apply Forall_forall. intros [k v] I1. cbn [snd]. destruct (Each _ _ I1) as [[-> ->]|(Ne & f1 & f2 & -> & _)].
    - split; [exact Nb|]. exists b. now split.
    - apply Forall2_app_inv_l in F as (g1 & g2 & F1 & F2 & _). inversion F2 as [|? [k' b'] ? g3 H F3]; subst. destruct H as (_ & Nv & b2 & S2 & E2 & Sd2).
      cbn [snd] in *. split; [exact Nv|]. exists b2. subst b'. now split. }
  destruct (functions_match gen funs Good) as (l & Fl & Efs).
  exists l. split; [|split].
  - apply final; [now rewrite <- (match_keys gen _ _ Fl)|]. apply Forall_forall. intros [k b2] I1.
    destruct (match_in gen _ _ Fl _ I1) as (v & I2 & H). cbn [fst snd] in *. cbn [r r_functions r_main].
    destruct (Each _ _ I2) as [[-> ->]|(Ne & f1 & f2 & -> & Nf)].
    + exists (functions fs), []. split; [|intros []]. f_equal. f_equal. f_equal.
      destruct H as (_ & _ & c & S1 & E1 & _). cbn [fst snd] in *. rewrite Sb in S1. assert (c = b) as -> by congruence. now symmetry.
    + apply Forall2_app_inv_l in F as (g1 & g2 & F1 & F2 & Eg). inversion F2 as [|? [k' b'] ? g3 H' F3]; subst.
      assert (k' = k) as -> by (destruct H' as (E1 & _); cbn [fst] in E1; congruence).
      rewrite (match_body gen k v b2 b' H H'). exists g1, (g3 ++ [(L "__main__()", or_pass b)]). split.
      * rewrite Eg, <- app_assoc. reflexivity.
      * rewrite map_app, in_app_iff. cbn [map fst In]. rewrite <- (match_keys gen _ _ F3). intros [I3|[I3|[]]]; [contradiction|]. now apply Ne.
  - exact Efs.
  - intros (D0 & Um & Uf). cbn [r r_main r_functions] in Um, Uf. apply Forall_forall. intros n I1. apply in_map_iff in I1 as ([k v] & <- & I1).
    cbn [fst snd well_named].
    assert (X : a_decl py gen k /\ Forall (well_named py gen) v).
    { destruct (Each _ _ I1) as [[-> ->]|(Ne & f1 & f2 & -> & _)].
      - split; [exact D0|]. exact (rusers_well_named py gen body b Sb Um Nb).
      - apply Forall2_app_inv_l in F as (g1 & g2 & F1 & F2 & Eg). inversion F2 as [|? [k' b'] ? g3 H' F3]; subst.
        destruct H' as (E1 & Nv & c & S1 & E2 & _). cbn [fst snd] in E1, Nv, S1, E2. subst k' b'. rewrite Eg in Uf. apply Forall_app in Uf as [_ Uf]. apply Forall_cons_iff in Uf as [[U1 U2] _].
        cbn [fst snd] in U1, U2. split; [exact U1|]. apply (rusers_well_named py gen v c S1); [now apply or_pass_user|exact Nv]. }
    destruct X as [X1 X2]. split; [exact X1|]. clear -X2. induction X2; [exact Logic.I|split; assumption].
Qed.

Lemma document_compiles : forall s d r0, document_tells compile gen s d r0 ->
  exists t r l, compile_document compile helper (s_autoblocks s) (s_cdata s) (s_mode s) (s_fragment s) d = Ok t /\
    document_tells compile gen s d r /\ map snd (mod_py t) = r_module r /\
    final_functions r l /\ functions_of (defs t) = Some (map with_name l) /\
    (user_reading py gen r -> Forall (well_named py gen) (defs t)) /\
    ((forall x y, gen x -> gen y -> x = y) -> r = r0).
Proof.
  intros s d r0 [root ps0 b0 fs0 child line Er T0 A0 Dl Sd0]. unfold compile_document. change no_comment with not_comment. rewrite Er.
  pose proof (proj1 (compiles_tells compile helper (s_autoblocks s) (s_cdata s) (s_mode s) gen helper_gen) _ _ _ _ _ _ _ _ T0 InDocument eq_refl) as G.
  destruct (G (Cst [(main_decl, [])] [] false false 0) eq_refl eq_refl) as (ns & s' & ps & fs & E & T & Sh & P & Nn & (fl & F & Ef & Em) & _ & Ec).
  cbv beta in T. destruct T as [T Only]. destruct (assemble_shape _ _ _ (eq_sym Sh) A0) as [b A]. rewrite E. cbn [rmap fst snd]. rewrite Ec.
  set (pre := match line with [] => [] | _ => [RText line None] end).
  set (body := doctype_text (s_mode s) (s_fragment s) child (d_dtd d) ++ ns).
  assert (Dt : doctype_text (s_mode s) (s_fragment s) child (d_dtd d) = match line with [] => [] | _ => [NText 1 line None] end).
  { destruct (s_fragment s || child) eqn:Eb; [subst line; unfold doctype_text; now rewrite Eb|].
    apply orb_false_iff in Eb as [-> ->]. now apply doctype_is. }
  assert (Sb : structure body = Some (pre ++ b)).
  { unfold body, pre. rewrite Dt. unfold structure. destruct line as [|c0 line]; cbn [app]; [rewrite P; exact A|].
    cbn [pieces_of piece_of S_Exec.obind]. rewrite P. cbn [option_map S_Exec.obind]. now apply assemble_stm. }
  assert (Nb : rnameds gen body).
  { unfold body. rewrite Dt. destruct line; [exact Nn|]. constructor; [exact Logic.I|exact Nn]. }
  assert (Sd : solid (or_pass (pre ++ b))).
  { unfold pre in *. destruct line as [|c0 line]; [|exists (RText (c0 :: line) None); split; [now left|reflexivity]]. cbn [app] in *. now apply (solid_pass_shape ps0 ps b0 b). }
  set (r := Reading (pre ++ b) (functions fs) (modules fs)).
  assert (Tr : document_tells compile gen s d r) by (now apply (document_reading compile gen s d root ps b fs child line)).
  destruct (class_compiles fl fs body (pre ++ b) F Sb Nb Sd) as (l & Fl & Efs & W).
  exists (TemplateNode 0 (c_mod s') (map (fun kv => NDef 0 false (fst kv) (snd kv)) (set_function main_decl body (c_funs s')))), r, l.
  rewrite Ef in *. split; [reflexivity|]. split; [exact Tr|]. split; [|split; [exact Fl|split; [exact Efs|split; [exact W|]]]].
  - cbn [mod_py]. rewrite Em. cbn [c_mod app]. rewrite map_map. cbn [snd]. rewrite map_id. reflexivity.
  - intros Sg. destruct (Only Sg) as [-> ->]. unfold r. now assert (b = b0) as -> by congruence.
Qed.
End Class.

(** There is a main function. *)
Lemma final_some : forall r l, final_functions r l -> l <> [].
Proof. intros r l [l0 K _] ->. discriminate. Qed.
(** ** Sources *)
Lemma xml_compiles : forall expat compile x d, xml_document expat x = Ok d ->
  xml_template expat compile (x_helper x) (x_mode x) (x_fragment x) (x_autoblocks x) (x_cdata x) (x_strip x) (x_text x) =
  compile_document compile (x_helper x) (x_autoblocks x) (x_cdata x) (rendering_mode (x_mode x) (d_dtd d)) (x_fragment x) d.
Proof.
  intros expat compile x d. unfold xml_document, xml_template. destruct (parser_source (x_text x)) as [dtd source]. destruct (expat source) as [ev|]; [|discriminate].
  cbn [rbind]. destruct (build ev) as [ns|]; [|discriminate]. cbn [rbind rmap]. intros E. assert (d = transform (x_strip x) (Document dtd ns)) as -> by congruence. reflexivity.
Qed.

(** ** The class that a source describes is unique *)
Lemma last_body_unique : forall d l b b', last_body d l b -> last_body d l b' -> b = b'.
Proof.
  intros d l b b' (l1 & l2 & E & N0) (l1' & l2' & E' & N0'). revert l1' l E E'. induction l1 as [|x l1 IH]; intros l1' l E E'; subst l; cbn [app] in E'.
  - destruct l1' as [|x' l1']; cbn [app] in E'; [congruence|]. exfalso. apply N0. assert (l2 = l1' ++ (d, b') :: l2') as -> by congruence.
    rewrite map_app, in_app_iff. right. now left.
  - destruct l1' as [|x' l1']; cbn [app] in E'.
    + exfalso. apply N0'. assert (l2' = l1 ++ (d, b) :: l2) as -> by congruence. rewrite map_app, in_app_iff. right. now left.
    + apply (IH l1' (l1 ++ (d, b) :: l2) eq_refl). congruence.
Qed.
Lemma final_unique : forall r l l', final_functions r l -> final_functions r l' -> l = l'.
Proof.
  intros r l l' [l0 K F] [l0' K' F']. rewrite <- K in K'. clear K. revert l0' K' F'. induction F as [|[k b] m H F IH]; intros m' K' F'.
  - destruct m'; [reflexivity|discriminate].
  - destruct m' as [|[k' b'] m']; [discriminate|]. cbn [map fst] in K'. apply Forall_cons_iff in F' as [H' F']. cbn [fst snd] in *.
    assert (k' = k) as -> by congruence. rewrite (last_body_unique _ _ _ _ H H'). f_equal. apply IH; [congruence|exact F'].
Qed.
Theorem source_unique : forall expat compile exec_module g x c c',
  source_tells expat compile exec_module (eq g) x c -> source_tells expat compile exec_module (eq g) x c' -> c = c'.
Proof.
  intros expat compile exec_module g x c c' H H'. destruct H as [r0 ? X C], X as [d r Ed T], H' as [r0' ? X' C'], X' as [d' r' Ed' T']. assert (d' = d) as -> by congruence. clear Ed'.
  assert (Sg : forall y z : str, g = y -> g = z -> y = z) by congruence.
  set (py := Python (fun x => EName x) (fun _ => []) (fun _ => ([], EName [])) (fun _ => false) (fun _ => Ok []) (fun _ => Ok []) (fun _ => Ok []) (fun _ _ => Ok []) (fun _ _ => false)
     (fun s => VStr s) (fun _ _ => Ok VNone) (fun _ _ _ => Ok VNone) (fun _ _ => Ok VNone) (fun _ => None)).
  destruct (document_compiles compile (fun _ => g) (eq g) (fun _ => eq_refl) py _ _ _ T) as (t & r1 & l & Ec & _ & Em & Fl & Ef & _ & Er).
  destruct (document_compiles compile (fun _ => g) (eq g) (fun _ => eq_refl) py _ _ _ T') as (t' & r1' & l' & Ec' & _ & Em' & Fl' & Ef' & _ & Er').
  specialize (Er Sg). specialize (Er' Sg). subst r1 r1'. assert (t' = t) as -> by congruence. clear Ec'.
  destruct C as [l0 F0], C' as [l0' F0']. assert (r_module r' = r_module r) as -> by congruence.
  rewrite (final_unique _ _ _ F0 Fl), (final_unique _ _ _ F0' Fl'). rewrite Ef in Ef'. assert (map with_name l' = map with_name l) as -> by congruence. reflexivity.
Qed.
