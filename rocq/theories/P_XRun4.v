(** * What a document says is unique, up to the names of the bodies of calls *)

From Coq Require Import Ascii String List Arith NArith ZArith Bool Lia Permutation Sorted.
From Verif Require Import PyStr PyStrLemmas M_Values S_Values M_IR P_IR M_Template M_Text M_XText S_XText P_XText M_Entities S_Entities M_Doctype M_Dom M_XCompile
  S_XDoc S_XFun P_XDoc P_XDoc2 P_XFun P_XFun2 M_Run S_Run P_Run4 P_Run5 P_Run8 M_XRun S_XRun P_XRun1 P_XRun2 P_XRun3.
From Verif Require M_Exec S_Exec P_Dom2 P_XText2.
Import ListNotations.
Open Scope list_scope.

Section Unique.
Variable compile : str -> compiled.
Variable autoblocks : list str.
Variable cdata_scripts : bool.
Variable mode : str.
Variable g : str.
Notation Tells := (tells compile autoblocks cdata_scripts mode (eq g)).
Notation RestTells := (rest_tells compile autoblocks cdata_scripts mode (eq g)).
Notation AllTell := (all_tell compile autoblocks cdata_scripts mode (eq g)).
Notation Comp := (compiles_tells compile (fun _ => g) autoblocks cdata_scripts mode (eq g) (fun _ => eq_refl)).

Lemma one_name : forall x y : str, g = x -> g = y -> x = y. Proof. congruence. Qed.
Lemma shows_unique : forall i c parent prev n ps fs c' ps' fs' c'', Tells i c parent prev n ps fs c' -> Tells i c parent prev n ps' fs' c'' -> ps = ps' /\ c' = c''.
Proof.
  intros i c parent prev n ps fs c' ps' fs' c'' T T'.
  assert (X : exists p, parent_tag p = parent).
  { destruct parent as [|ch parent]; [exists InDocument; reflexivity|]. exists (InElement (ch :: parent) []). reflexivity. }
  destruct X as [p Hp].
  destruct (proj1 Comp _ _ _ _ _ _ _ _ T p Hp (Cst [] [] i c 0) eq_refl eq_refl) as (ns & s & q & f & E & (_ & O) & _ & P & _ & _ & _ & C).
  destruct (proj1 Comp _ _ _ _ _ _ _ _ T' p Hp (Cst [] [] i c 0) eq_refl eq_refl) as (ns' & s' & q' & f' & E' & (_ & O') & _ & P' & _ & _ & _ & C').
  destruct (O one_name) as [-> _], (O' one_name) as [-> _]. assert (ns' = ns /\ s' = s) as [-> ->] by (split; congruence). split; congruence.
Qed.
Lemma all_shows_unique : forall i c marks parent prev l ps fs c' ps' fs' c'', AllTell i c marks parent prev l ps fs c' -> AllTell i c marks parent prev l ps' fs' c'' -> ps = ps' /\ c' = c''.
Proof.
  intros i c marks parent prev l ps fs c' ps' fs' c'' T T'.
  assert (X : exists p, parent_tag p = parent).
  { destruct parent as [|ch parent]; [exists InDocument; reflexivity|]. exists (InElement (ch :: parent) []). reflexivity. }
  destruct X as [p Hp].
  destruct (proj2 (proj2 Comp) _ _ _ _ _ _ _ _ _ T 0 p Hp (Cst [] [] i c 0) eq_refl eq_refl) as (ns & s & q & f & E & (_ & O) & _ & P & _ & _ & _ & C).
  destruct (proj2 (proj2 Comp) _ _ _ _ _ _ _ _ _ T' 0 p Hp (Cst [] [] i c 0) eq_refl eq_refl) as (ns' & s' & q' & f' & E' & (_ & O') & _ & P' & _ & _ & _ & C').
  destruct (O one_name) as [-> _], (O' one_name) as [-> _]. assert (ns' = ns /\ s' = s) as [-> ->] by (split; congruence). split; congruence.
Qed.

(** ** One rule for each node *)
Lemma own_fun : forall tag a a1 a2, own_attrs autoblocks tag a a1 -> own_attrs autoblocks tag a a2 -> a1 = a2.
Proof. intros tag a a1 a2 [H|H _ _] [H'|H' _ _]; congruence || contradiction. Qed.
Lemma own_auto : forall tag a a1, own_attrs autoblocks tag a a1 -> ~ autoblock autoblocks tag a.
Proof.
  intros tag a a1 [H|H P E] [I1 [A|A]]; try contradiction. rewrite A in E. vm_compute in E. discriminate.
Qed.
Lemma dir_fun : forall tag a d a1 d' a2, is_directive autoblocks tag a d a1 -> is_directive autoblocks tag a d' a2 -> d = d' /\ a1 = a2.
Proof. intros tag a d a1 d' a2 [D O] [D' O']. split; [now apply (directive_fun tag)|now apply (own_fun tag a)]. Qed.
Lemma block_dir : forall tag a n d a1, is_block autoblocks tag a n -> is_directive autoblocks tag a d a1 -> d = L "block".
Proof. intros tag a n d a1 [A|a' D] D'; [destruct D' as [_ O]; now destruct (own_auto _ _ _ O)|]. now destruct (dir_fun _ _ _ _ _ _ D D'). Qed.
Lemma block_fun : forall tag a n n', is_block autoblocks tag a n -> is_block autoblocks tag a n' -> n = n'.
Proof.
  intros tag a n n' [A|a' D] [A'|a2 D']; [reflexivity| | |].
  - destruct D' as [_ O]. now destruct (own_auto _ _ _ O).
  - destruct D as [_ O]. now destruct (own_auto _ _ _ O).
  - now destruct (dir_fun _ _ _ _ _ _ D D') as [_ ->].
Qed.
Lemma plain_dir : forall tag a d a1, plain_tag tag -> is_directive autoblocks tag a d a1 -> smem d known_directives = true -> False.
Proof. intros tag a d a1 P [D _] K. apply (P d D). now apply smem_In. Qed.
Lemma plain_block : forall tag a n a1, plain_tag tag -> own_attrs autoblocks tag a a1 -> is_block autoblocks tag a n -> False.
Proof. intros tag a n a1 P O [A|a' D]; [now apply (own_auto _ _ _ O)|]. now apply (plain_dir _ _ _ _ P D). Qed.
Ltac differ E := exfalso; vm_compute in E; discriminate E.
Ltac one :=
  match goal with
  | D : is_directive _ ?t ?a ?d _, D' : is_directive _ ?t ?a ?d' _ |- _ =>
      let E := fresh "E" in let E' := fresh "E" in destruct (dir_fun _ _ _ _ _ _ D D') as [E E'];
      first [constr_eq d d'; clear E D'; subst|differ E]
  | B : is_block _ ?t ?a _, D : is_directive _ ?t ?a ?d _ |- _ =>
      let E := fresh "E" in pose proof (block_dir _ _ _ _ _ B D) as E; differ E
  | B : is_block _ ?t ?a _, B' : is_block _ ?t ?a _ |- _ =>
      let E := fresh "E" in pose proof (block_fun _ _ _ _ B B') as E; clear B'; subst
  | P : plain_tag ?t, D : is_directive _ ?t _ _ _ |- _ => exfalso; exact (plain_dir _ _ _ _ P D eq_refl)
  | P : plain_tag ?t, O : own_attrs _ ?t ?a _, B : is_block _ ?t ?a _ |- _ => exfalso; exact (plain_block _ _ _ _ P O B)
  end.
Lemma facts_unique :
  (forall i c parent prev n ps fs c', Tells i c parent prev n ps fs c' -> forall ps' fs' c'', Tells i c parent prev n ps' fs' c'' -> fs = fs') /\
  (forall i c ln tag a gd cs ps fs c', RestTells i c ln tag a gd cs ps fs c' -> NoDup (map fst a) -> forall ps' fs' c'', RestTells i c ln tag a gd cs ps' fs' c'' -> fs = fs') /\
  (forall i c marks parent prev l ps fs c', AllTell i c marks parent prev l ps fs c' -> forall ps' fs' c'', AllTell i c marks parent prev l ps' fs' c'' -> fs = fs').
Proof.
  apply tells_induction.
  - intros. inversion H; subst; congruence.
  - intros. inversion H; subst; congruence.
  - intros. inversion H; subst; congruence.
  - intros. inversion H; subst; congruence.
  - intros i c parent prev ln t d lines Ne Np D ps' fs' c'' T'. inversion T'; subst; [reflexivity|]. exfalso. eapply Np. eassumption.
  - intros i c parent prev ln t d code lines E D ps' fs' c'' T'. inversion T' as [| | | |? ? ? ? ? ? ? ? ? Np|? ? ? ? ? ? ? code' lines' E' D'| | | | | | | | | | | | | | | | |]; subst.
    + exfalso. eapply Np. eassumption.
    + assert (code' = code) as -> by congruence. now rewrite (dedented_unique _ _ _ D D').
  - intros i c parent prev ln tag a a' cs ps b fs c' D T IH A Sd ps' fs' c'' T'. inversion T'; subst; one. eapply IH; eassumption.
  - intros i c parent prev ln tag a a' cs ps b fs c' D El T IH A Sd ps' fs' c'' T'. inversion T'; subst; one. eapply IH; eassumption.
  - intros i c parent prev ln tag a a' cs ps b fs c' D T IH A Sd ps' fs' c'' T'. inversion T'; subst; one. eapply IH; eassumption.
  - intros i c parent prev ln tag a a' cs vars ps b fs c' D V T IH A ps' fs' c'' T'. inversion T'; subst; one. eapply IH; eassumption.
  - intros i c parent prev ln tag a a' cs ps cases els fs c' D T IH A ps' fs' c'' T'. inversion T'; subst; one. eapply IH; eassumption.
  - intros i c parent prev ln tag a a' cs ps b fs c' D T IH A Sd ps' fs' c'' T'. inversion T'; subst; one. eapply IH; eassumption.
  - intros i c parent prev ln tag a a' cs D ps' fs' c'' T'. inversion T'; subst; one. reflexivity.
  - intros i c parent prev ln tag a a' cs ps fs c' D T IH ps' fs' c'' T'. inversion T'; subst; one. eapply IH; eassumption.
  - intros c parent prev ln tag a a' cs ps b fs c' D T IH A Sd ps' fs' c'' T'. inversion T'; subst; one.
    match goal with T2 : AllTell true c false tag [] cs ?ps2 ?fs2 _, A2 : assemble ?ps2 = Some ?b2 |- _ => lazymatch ps2 with ps => fail | _ =>
      destruct (all_shows_unique _ _ _ _ _ _ _ _ _ _ _ _ T T2) as [? _]; rewrite (IH _ _ _ T2); assert (b2 = b) as -> by congruence; reflexivity end end.
  - intros c parent prev ln tag a a' cs ps b fs c' D T IH A Sd ps' fs' c'' T'. inversion T'; subst; one. eapply IH; eassumption.
  - intros i c parent prev ln tag a a' cs args x ps b fs c' D Ca Gx T IH A Sd ps' fs' c'' T'. inversion T'; subst; one. eapply IH; eassumption.
  - intros i c parent prev ln tag a cs name ps b fs B T IH A Sd ps' fs' c'' T'. inversion T'; subst; one.
    + match goal with T2 : AllTell i c false tag [] cs ?ps2 ?fs2 _, A2 : assemble ?ps2 = Some ?b2 |- _ => lazymatch ps2 with ps => fail | _ =>
        destruct (all_shows_unique _ _ _ _ _ _ _ _ _ _ _ _ T T2) as [? ?]; rewrite (IH _ _ _ T2); assert (b2 = b) as -> by congruence; reflexivity end end.
    + exfalso. match goal with T2 : AllTell i c false tag [] cs ?ps2 ?fs2 true |- _ => destruct (all_shows_unique _ _ _ _ _ _ _ _ _ _ _ _ T T2) as [_ ?]; discriminate end.
  - intros i c parent prev ln tag a cs name lines ps b fs B T IH A Dd ps' fs' c'' T'. inversion T'; subst; one.
    + exfalso. match goal with T2 : AllTell i c false tag [] cs ?ps2 ?fs2 false |- _ => destruct (all_shows_unique _ _ _ _ _ _ _ _ _ _ _ _ T T2) as [_ ?]; discriminate end.
    + match goal with T2 : AllTell i c false tag [] cs ?ps2 ?fs2 _, A2 : assemble ?ps2 = Some ?b2, Dd' : dedented _ ?lines2 |- _ => lazymatch ps2 with ps => fail | _ => lazymatch lines2 with lines => fail | _ =>
        destruct (all_shows_unique _ _ _ _ _ _ _ _ _ _ _ _ T T2) as [? ?]; rewrite (IH _ _ _ T2); assert (b2 = b) as -> by congruence; rewrite (dedented_unique _ _ _ Dd Dd'); reflexivity end end end.
  - intros i c parent prev ln tag a a' cs ps fs c' D T IH ps' fs' c'' T'. inversion T'; subst; one. eapply IH; eassumption.
  - intros i c parent prev ln tag a a' cs D ps' fs' c'' T'. inversion T'; subst; one. reflexivity.
  - intros i c parent prev ln tag a a' cs alias D Al ps' fs' c'' T'. inversion T'; subst; one. reflexivity.
  - intros i c parent prev ln tag a0 a cs gd sorted shown more rest fs c' Pt Ow ND TC P S As Ma R IH ps' fs' c'' T'. inversion T'; subst; try one.
    match goal with O2 : own_attrs _ tag a0 ?a2, R2 : RestTells i c ln tag ?a2 ?g2 cs _ _ _, TC2 : tag_condition ?a2 ?g2 |- _ => lazymatch R2 with R => fail | _ =>
      pose proof (own_fun _ _ _ _ Ow O2) as Ea; rewrite <- Ea in *; pose proof (own_nodup autoblocks _ _ _ Ow ND) as ND';
      assert (Eg : g2 = gd) by (rewrite <- (guard_spec _ _ ND' TC), <- (guard_spec _ _ ND' TC2); reflexivity); rewrite Eg in R2; exact (IH ND' _ _ _ R2) end end.
  - intros i c ln tag a gd cs x V Ne ND ps' fs' c'' R. inversion R; subst; try reflexivity;
      match goal with NC : no_content_attr a |- _ => exfalso; apply Ne; rewrite <- (get_attr_value _ _ _ ND V); now apply no_content end.
  - intros i c ln tag a gd t NC Cl ND ps' fs' c'' R. inversion R; subst; try reflexivity; congruence.
  - intros i c ln tag a gd cs ss NC Ne Cd SS H ND ps' fs' c'' R. inversion R; subst; try reflexivity.
    + exfalso. tauto.
    + exfalso. now apply (script_not_void tag).
  - intros i c ln tag a gd cs ps fs c' NC Ne NS NV T IH ND ps' fs' c'' R. inversion R; subst; try congruence.
    + exfalso. match goal with V : value_at _ a ?x, Nx : ?x <> [] |- _ => apply Nx; rewrite <- (get_attr_value _ _ _ ND V); now apply no_content end.
    + exfalso. tauto.
    + eapply IH; eassumption.
    + exfalso. tauto.
  - intros i c ln tag a gd cs ps fs c' NC Ne Hh V T IH ND ps' fs' c'' R. inversion R; subst; try congruence.
    + exfalso. match goal with V : value_at _ a ?x, Nx : ?x <> [] |- _ => apply Nx; rewrite <- (get_attr_value _ _ _ ND V); now apply no_content end.
    + exfalso. now apply (script_not_void tag).
    + exfalso. tauto.
    + eapply IH; eassumption.
  - intros i c marks parent prev ps' fs' c'' T'. now inversion T'.
  - intros i c parent prev ln t l ps fs c' T IH ps' fs' c'' T'. inversion T'; subst; [eapply IH; eassumption|].
    exfalso. match goal with H : _ \/ ~ is_mark _ |- _ => destruct H as [H|H]; [discriminate|apply H; exact Logic.I] end.
  - intros i c marks parent prev n l ps qs fs fs' c1 c2 NM T IH1 Ta IH2 ps' fs'' c'' T'. inversion T'; subst.
    + exfalso. destruct NM as [NM|NM]; [discriminate|apply NM; exact Logic.I].
    + match goal with T1 : Tells i c parent prev n ?ps1 ?fs1 ?c3, T2 : AllTell i ?c3 marks parent _ l _ _ _ |- _ => lazymatch c3 with c1 => fail | _ =>
        destruct (shows_unique _ _ _ _ _ _ _ _ _ _ _ T T1) as [_ Ec]; rewrite <- Ec in T2; f_equal; [exact (IH1 _ _ _ T1)|exact (IH2 _ _ _ T2)] end end.
Qed.
End Unique.

Lemma doctype_unique : forall mode dtd line line', doctype_line mode dtd line -> doctype_line mode dtd line' -> line = line'.
Proof.
  intros mode dtd line line' H H'. pose proof (doctype_is mode dtd line H) as E. rewrite (doctype_is mode dtd line' H') in E.
  destruct line, line'; congruence.
Qed.
Theorem reading_unique : forall compile g s d r r', document_tells compile (eq g) s d r -> document_tells compile (eq g) s d r' -> r = r'.
Proof.
  intros compile g s d r r' [root ps b fs child line Er T A Dl] [root' ps' b' fs' child' line' Er' T' A' Dl']. assert (root' = root) as -> by congruence.
  destruct (shows_unique _ _ _ _ _ _ _ _ _ _ _ _ _ _ _ _ T T') as [-> ->]. rewrite (proj1 (facts_unique _ _ _ _ _) _ _ _ _ _ _ _ _ T _ _ _ T').
  assert (b' = b) as -> by congruence. assert (line' = line) as ->; [|reflexivity].
  destruct (s_fragment s || child'); [congruence|]. eapply doctype_unique; eassumption.
Qed.
