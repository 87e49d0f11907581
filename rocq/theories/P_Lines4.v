(** * The table of lines of a whole document *)

From Coq Require Import Ascii String List NArith ZArith Bool Lia Arith.
From Verif Require Import PyStr PyStrLemmas M_Values M_IR M_Text M_XText M_Entities M_Dom M_XCompile M_Lnotab S_Lnotab S_XDoc S_XFun S_Lines
  P_Lnotab P_IR P_Dom P_XDoc P_XDoc2 P_XFun P_XFun2 P_Lines1 P_Lines2 P_Lines3.
Import ListNotations.
Open Scope nat_scope.
Open Scope list_scope.

Lemma track_one : forall m l hi, track m l hi -> track (Nat.max 1 m) l (Nat.max 1 hi).
Proof.
  intros m l hi T. induction T as [m hi A|m m' n l hi A B T IH|m n e l hi A B T IH].
  - apply tr_nil. lia.
  - apply (tr_plain _ (Nat.max 1 m')); [lia|lia|exact IH].
  - apply tr_code; [lia|exact B|]. now replace (Nat.max 1 n) with n in IH by lia.
Qed.
Lemma generate_app : forall a n b, exists n', generate_from n (a ++ b) = generate_from n a ++ generate_from n' b.
Proof.
  induction a as [|i a IH]; intros n b; [now exists n|]. destruct i as [| |ln t g|ln ps]; cbn [app generate_from].
  - apply IH.
  - apply IH.
  - destruct (IH n b) as (n' & E). exists n'. now rewrite E.
  - destruct (IH n b) as (n' & E). exists n'. rewrite E. now rewrite app_assoc.
Qed.
Lemma coded_app : forall r1 l1 r2 l2, length r1 = length l1 -> coded (r1 ++ r2) (l1 ++ l2) = coded r1 l1 ++ coded r2 l2.
Proof.
  induction r1 as [|r r1 IH]; intros [|l l1] r2 l2 E; try discriminate; [reflexivity|]. unfold coded in *. cbn [app combine flat_map].
  rewrite IH by (cbn in E; lia). now rewrite app_assoc.
Qed.
Lemma fold_max_le : forall l k, (k <= fold_left Z.max l k)%Z /\ (forall x, In x l -> (x <= fold_left Z.max l k)%Z).
Proof.
  induction l as [|y l IH]; intros k; cbn [fold_left]; [split; [lia|intros x []]|]. destruct (IH (Z.max k y)) as [A B]. split; [lia|].
  intros x [<-|I1]; [lia|now apply B].
Qed.
Lemma code_in : forall lines x, In x (code_sites (map line_site lines)) -> exists l, In l lines /\ p_lineno l = fst x.
Proof.
  induction lines as [|l lines IH]; intros x; cbn [map code_sites]; [intros []|]. unfold line_site at 1. destruct (numbered_code l) as [e|].
  - intros [<-|I1]; [exists l; split; [now left|reflexivity]|]. destruct (IH x I1) as (l' & I2 & E). exists l'. split; [now right|exact E].
  - intros I1. destruct (IH x I1) as (l' & I2 & E). exists l'. split; [now right|exact E].
Qed.
(** First part in order: its code is reported where it stands; whatever follows, not above it. *)
Lemma reported_split : forall A B hi, track 0 (map line_site A) hi ->
  exists rest, reported_code (A ++ B) = map in_Z (code_sites (map line_site A)) ++ rest /\
    Forall (fun x : Z * str => Forall (fun y => (Z.of_nat (fst y) <= fst x)%Z) (code_sites (map line_site A))) rest /\
    (code_sites (map line_site B) = [] -> rest = []).
Proof.
  intros A B hi T. unfold reported_code. change (flat_map _ (combine (reported (A ++ B)) (A ++ B))) with (coded (reported (A ++ B)) (A ++ B)).
  rewrite reported_app. rewrite coded_app by apply reported_length. eexists. split; [|split].
  - f_equal. exact (track_reported A 0 hi T 0%Z).
  - set (mx := fold_left Z.max (map (fun l => Z.of_nat (p_lineno l)) A) 0%Z). apply Forall_forall. intros x Ix. apply Forall_forall. intros y Iy.
    apply code_in in Iy as (l & Il & <-). assert (Z.of_nat (p_lineno l) <= mx)%Z by (apply (proj2 (fold_max_le _ 0%Z)); now apply in_map_iff; exists l).
    assert (mx <= fst x)%Z; [|lia]. clear - Ix. unfold coded in Ix. apply in_flat_map in Ix as ([r p] & I1 & I2). apply in_combine_l in I1. apply in_map_iff in I1 as (r0 & <- & _).
    cbn [fst snd] in I2. destruct (numbered_code p); [|destruct I2]. destruct I2 as [<-|[]]. cbn [fst]. lia.
  - intros E. clear T. revert E. set (rs := map _ (reported B)). clearbody rs. revert rs. induction B as [|b B IH]; intros rs E; [unfold coded; now rewrite combine_nil|].
    destruct rs as [|r rs]; [reflexivity|]. unfold coded in *. cbn [combine flat_map map code_sites] in *. unfold line_site in E at 1. cbn [fst snd]. destruct (numbered_code b); [discriminate|].
    cbn [app]. now apply IH.
Qed.

Lemma optimize_cut : forall a b, optimize (a ++ IDedent :: b) = optimize a ++ IDedent :: optimize b.
Proof.
  assert (N : forall b, optimize_from (Some IDedent) b = IDedent :: optimize b).
  { intros [|i b]; [reflexivity|]. unfold optimize. cbn [optimize_from]. now destruct i. }
  assert (G : forall a last b, optimize_from last (a ++ IDedent :: b) = optimize_from last a ++ IDedent :: optimize b).
  { induction a as [|i a IH]; intros last b; cbn [app optimize_from].
    - destruct last as [n|]; cbn [app]; now rewrite N.
    - destruct i as [| |ln t g|ln ps]; destruct last as [[| |ln0 t0 g0|ln0 ps0]|]; try (cbn [app]; now rewrite IH).
      destruct (oseqb g0 g); cbn [app]; now rewrite IH. }
  intros a b. apply G.
Qed.

Section Doc.
Variable compile : str -> compiled.
Variable helper : nat -> str.
Variable autoblocks : list str.
Variable cdata_scripts : bool.
Variable mode : str.
Notation Runs := (runs compile helper autoblocks cdata_scripts mode).

Lemma runs_funs : forall l s s', Runs l s s' -> declared_names l = [] -> c_funs s' = c_funs s.
Proof.
  intros l s s' R. induction R as [s s' (A & B & C)|d l s s1 s2 E R IH]; intros N; [exact A|].
  destruct d as [k e| |ls]; cbn [declared_names] in N; [discriminate| |]; cbn [effect] in E; destruct E as (E & _ & _); rewrite IH by exact N; exact E.
Qed.
Lemma runs_mod : forall l s s', Runs l s s' -> Forall (fun x : nat * list str => fst x = 0) (c_mod s) -> Forall (fun x : nat * list str => fst x = 0) (c_mod s').
Proof.
  intros l s s' R. induction R as [s s' (A & B & C)|d l s s1 s2 E R IH]; intros F; [now rewrite B|]. apply IH.
  destruct d as [k e| |ls]; cbn [effect] in E.
  - assert (X : c_mod s1 = c_mod s) by (repeat match goal with H : _ /\ _ |- _ => destruct H | H : exists _, _ |- _ => destruct H end; assumption). now rewrite X.
  - destruct E as (_ & E & _). now rewrite E.
  - destruct E as (_ & E & _). rewrite E. apply Forall_app. split; [exact F|]. now repeat constructor.
Qed.
Theorem runs_main : forall l s s' v, Runs l s s' -> c_funs s = (main_decl, v) :: tl (c_funs s) ->
  exists v', c_funs s' = (main_decl, v') :: tl (c_funs s').
Proof.
  intros l s s' v R. revert v. induction R as [s s' (A & B & C)|d l s s1 s2 E R IH]; intros v H.
  - exists v. congruence.
  - assert (K : exists v1, c_funs s1 = (main_decl, v1) :: tl (c_funs s1)).
    { destruct d as [k e| |ls]; cbn [effect] in E.
      - assert (X : exists b, c_funs s1 = set_function k b (c_funs s)) by (repeat match goal with H : _ /\ _ |- _ => destruct H | H : exists _, _ |- _ => destruct H end; eauto).
        destruct X as (b & X). rewrite X. rewrite H. cbn [set_function]. destruct (seqb_spec k main_decl) as [->|Ne]; cbn [tl]; eauto.
      - destruct E as (E & _ & _). exists v. congruence.
      - destruct E as (E & _ & _). exists v. congruence. }
    destruct K as (v1 & K). eapply IH; exact K.
Qed.
Theorem document_lines : forall frag d t root m, compile_document compile helper autoblocks cdata_scripts mode frag d = Ok t ->
  filter no_comment (d_children d) = [root] -> stands compile autoblocks cdata_scripts false root m -> in_order m ->
  exists rest, reported_code (generate_python t) = map in_Z (code_sites m) ++ rest /\
    Forall (fun x : Z * str => Forall (fun y => (Z.of_nat (fst y) <= fst x)%Z) (code_sites m)) rest /\
    (forall l, declares autoblocks cdata_scripts false root l -> declared_names l = [] -> rest = []).
Proof.
  intros frag d t root m E R St Io. unfold compile_document in E. rewrite R in E.
  match type of E with rmap _ ?c = _ => destruct c as [[ns s]|] eqn:Ec end; [|discriminate]. cbn [rmap fst snd] in E.
  set (body := doctype_text mode frag (c_is_child s) (d_dtd d) ++ ns) in *.
  destruct (compile_records _ _ _ _ _ root _ _ _ _ _ Ec) as (l & D & Rn & _). cbn [c_in_def] in D.
  destruct (runs_main _ _ _ [] Rn eq_refl) as (v & Ef). set (others := tl (c_funs s)) in *.
  assert (Es : set_function main_decl body (c_funs s) = (main_decl, body) :: others) by (rewrite Ef; cbn [set_function]; now rewrite seqb_refl).
  rewrite Es in E. assert (Et : t = TemplateNode 0 (c_mod s) (NDef 0 false main_decl body :: map (fun kv => NDef 0 false (fst kv) (snd kv)) others)) by (cbn [map fst snd] in E; congruence). clear E.
  pose proof (proj1 (document_fits compile helper autoblocks cdata_scripts mode) _ _ _ St) as F.
  specialize (F InDocument [] (Cst [(main_decl, [])] [] false false 0) ns s eq_refl eq_refl Ec).
  destruct (in_order_track m Io) as (hi & T). apply track_one in T. cbn [Nat.max] in T.
  destruct (F 1 _ (Nat.le_0_l 1) T) as [F1 F2].
  (* the lines of main *)
  assert (B : track 0 (sites_of (match body_iter body with [] => [ILines 0 (at0 [PPass])] | b => b end)) (Nat.max 1 hi) /\
    code_sites (sites_of (match body_iter body with [] => [ILines 0 (at0 [PPass])] | b => b end)) = code_sites m).
  { assert (B0 : fits 0 (items body) ((1, None) :: m)).
    { assert (F0 : fits 0 (items ns) m) by exact (proj1 (document_fits compile helper autoblocks cdata_scripts mode) _ _ _ St InDocument [] (Cst [(main_decl, [])] [] false false 0) ns s eq_refl eq_refl Ec).
      unfold body. rewrite items_app. apply (fits_app 0 _ [(1, None)]); [|exact F0].
      assert (X : doctype_text mode frag (c_is_child s) (d_dtd d) = [] \/ exists x, doctype_text mode frag (c_is_child s) (d_dtd d) = [NText 1 x None]).
      { unfold doctype_text. destruct (frag || c_is_child s); [now left|]. destruct (d_dtd d); [destruct (seqb mode (L "html5")); [|now left]|]; right; eexists; reflexivity. }
      destruct X as [->|(x & ->)]; [|apply fits_ntext]. intros k h Lk Tk. apply track_plain in Tk as (k' & A1 & A2 & Tk). split; [|reflexivity]. apply tr_nil. apply track_le in Tk. lia. }
    apply fits_body in B0. destruct (B0 0 (Nat.max 1 hi) (le_n 0)) as [B1 B2].
    { apply (tr_plain 0 1); [lia|lia|exact T]. }
    cbn [code_sites] in B2. destruct (body_iter body) as [|i b]; [|now split]. cbn [flat_map code_sites] in B1, B2. split; [|exact B2].
    apply (tr_plain 0 0); [lia|lia|exact B1]. }
  destruct B as [B1 B2].
  set (main := match body_iter body with [] => [ILines 0 (at0 [PPass])] | b => b end) in *.
  set (pre := map (fun m => ILines (fst m) (at0 (map PCode (snd m)))) (c_mod s) ++ [ILines 0 (at0 [PClass]); IIndent]).
  set (def := optimize (ILines 0 (at0 [PExpose; PDef main_decl]) :: IIndent :: main)).
  set (D0 := map (fun kv => NDef 0 false (fst kv) (snd kv)) others) in *.
  assert (Eg : template_iter t = (pre ++ def) ++ (IDedent :: optimize (items D0) ++ [IDedent; ILines 0 (at0 [PTemplate])])).
  { subst t. unfold template_iter. cbn [t_lineno mod_py defs]. unfold body_iter at 1. cbn [flat_map].
    change (iter (NDef 0 false main_decl body)) with ((ILines 0 (at0 [PExpose; PDef main_decl]) :: IIndent :: main) ++ [IDedent]).
    rewrite <- app_assoc. change ([IDedent] ++ items D0) with (IDedent :: items D0). rewrite optimize_cut. fold def. unfold pre. rewrite <- !app_assoc. reflexivity. }
  destruct (generate_app (pre ++ def) 0 (IDedent :: optimize (items D0) ++ [IDedent; ILines 0 (at0 [PTemplate])])) as (n' & Ep). rewrite <- Eg in Ep.
  assert (M0 : Forall (fun x : nat * list str => fst x = 0) (c_mod s)) by (eapply runs_mod; [exact Rn|constructor]).
  assert (Q : Forall (fun x : site => fst x <= 0 /\ snd x = None) (sites_of pre)).
  { unfold pre. rewrite sites_app. apply Forall_app. split; [|repeat constructor]. clear - M0. induction M0 as [|[n ls] l A M0 IH]; [constructor|]. cbn [fst] in A. subst n.
    cbn [map flat_map]. apply Forall_app. split; [apply quiet0|exact IH]. }
  assert (K : track 0 (sites_of (pre ++ def)) (Nat.max 1 hi) /\ code_sites (sites_of (pre ++ def)) = code_sites m).
  { assert (Fd : fits 0 def (sites_of main)).
    { unfold def. apply fits_optimize. apply (fits_after 0 main _ [ILines 0 (at0 [PExpose; PDef main_decl]); IIndent]); [|repeat constructor]. intros k h _ Tk. now split. }
    destruct (Fd 0 _ (le_n 0) B1) as [D1 D2]. rewrite sites_app, code_app. split.
    - eapply track_app; [apply track_quiet; exact Q|exact D1].
    - rewrite D2, B2. rewrite quiet_code; [reflexivity|]. eapply Forall_impl; [|exact Q]. cbn. tauto. }
  destruct K as [K1 K2]. rewrite <- (generate_sites (pre ++ def) 0) in K1, K2.
  destruct (reported_split _ (generate_from n' (IDedent :: optimize (items D0) ++ [IDedent; ILines 0 (at0 [PTemplate])])) _ K1) as (rest & E1 & E2 & E3).
  exists rest. unfold generate_python. rewrite Ep, E1, K2. rewrite K2 in E2. split; [reflexivity|]. split; [exact E2|].
  intros l' D' N. assert (l' = l) as -> by (eapply (proj1 (declares_unique autoblocks cdata_scripts)); eassumption).
  pose proof (runs_funs _ _ _ Rn N) as Efu. cbn [c_funs] in Efu. assert (others = []) as Eo by (unfold others; now rewrite Efu).
  apply E3. rewrite generate_sites. unfold D0. rewrite Eo. reflexivity.
Qed.
End Doc.
