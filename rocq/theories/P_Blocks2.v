(** * Sources of layouts and pages: proofs *)

From Coq Require Import Ascii String List NArith ZArith Bool Lia Arith Permutation.
From Verif Require Import PyStr PyStrLemmas M_Values P_Values M_Template S_Template P_Template M_Text M_XText S_XFun M_Run S_Run P_Run8 M_XRun S_XRun P_XRun3 P_XRun4 P_XRun5 P_Refused S_Blocks P_Blocks S_Blocks2.
From Verif Require P_I18n3.
Import ListNotations.
Open Scope list_scope.

(** ** The functions of a class *)
Lemma sets_new : forall X (l d : list (str * X)), NoDup (map fst d ++ map fst l) -> fold_left (fun d kf => set (fst kf) (snd kf) d) l d = d ++ l.
Proof.
  intros X. induction l as [|[k v] l IH]; intros d N; cbn [fold_left fst snd]; [now rewrite app_nil_r|].
  assert (E : set k v d = d ++ [(k, v)]).
  { assert (Nk : ~ In k (map fst d)). { cbn [map fst] in N. apply NoDup_remove_2 in N. intros H. apply N. apply in_or_app. now left. }
    clear - Nk. induction d as [|[k' v'] d IH]; cbn [set app]; [reflexivity|]. cbn [map fst In] in Nk. destruct (seqb_spec k k') as [->|Ne]; [tauto|]. rewrite IH by tauto. reflexivity. }
  rewrite E, IH; [now rewrite <- app_assoc|]. rewrite map_app. cbn [map fst]. rewrite <- app_assoc. exact N.
Qed.
Lemma last_ones_in : forall l kf, NoDup (map fst l) -> (In kf (last_ones l) <-> In kf l).
Proof.
  intros l kf N. unfold last_ones. rewrite sets_new by exact N. cbn [app]. split; intros H.
  - exact (Permutation_in _ (sort_perm _ l) H).
  - exact (Permutation_in _ (Permutation_sym (sort_perm _ l)) H).
Qed.
Lemma nodup_map_inv : forall A B (f : A -> B) l, NoDup (map f l) -> NoDup l.
Proof.
  induction l as [|a l IH]; intros N; constructor; apply NoDup_cons_iff in N as [N1 N2]; [|now apply IH].
  intros H. apply N1. now apply in_map.
Qed.
Lemma last_body_in : forall d l b, last_body d l b -> In (d, b) l.
Proof. intros d l b (l1 & l2 & -> & _). apply in_or_app. right. now left. Qed.

Lemma nodup_snoc : forall A (l : list A) a, NoDup (a :: l) -> NoDup (l ++ [a]).
Proof. intros A l a H. eapply Permutation_NoDup; [|exact H]. apply (Permutation_app_comm [a] l). Qed.
Lemma nodup_key : forall A (l : list (str * A)) k v v', NoDup (map fst l) -> In (k, v) l -> In (k, v') l -> v = v'.
Proof.
  induction l as [|[k0 v0] l IH]; intros k v v' N H H'; [destruct H|]. apply NoDup_cons_iff in N as [N1 N2]. cbn [In fst] in *.
  assert (Z : forall w, In (k, w) l -> In k (map fst l)) by (intros w Hw; apply in_map_iff; now exists (k, w)).
  destruct H as [H|H], H' as [H'|H'].
  - congruence.
  - assert (k0 = k) by congruence. subst. exfalso. apply N1. now apply (Z v').
  - assert (k0 = k) by congruence. subst. exfalso. apply N1. now apply (Z v).
  - now apply (IH k).
Qed.
Lemma class_methods_in : forall r l, NoDup (L "__main__" :: map (fun db => fun_name (fst db)) (r_functions r)) -> final_functions r l ->
  NoDup (map fst (map with_name l)) /\
  forall k f, In (k, f) (last_ones (map with_name l)) <-> k = fun_name (fst f) /\ (f = (L "__main__()", or_pass (r_main r)) \/ In f (r_functions r)).
Proof.
  intros r l N F. destruct F as [l Ek Fb].
  assert (Nd : NoDup (L "__main__()" :: map fst (r_functions r))).
  { change (L "__main__" :: map (fun db => fun_name (fst db)) (r_functions r)) with (map (fun db : str * list rstm => fun_name (fst db)) ((L "__main__()", []) :: r_functions r)) in N.
    change (L "__main__()" :: map fst (r_functions r)) with (map fst ((L "__main__()", []) :: r_functions r)). rewrite <- (map_map fst fun_name) in N. now apply nodup_map_inv in N. }
  rewrite P_I18n3.distinct_nodup in Ek by exact Nd.
  assert (Nn : NoDup (map fst (map with_name l))).
  { rewrite map_map. cbn [with_name fst]. change (fun x : str * list rstm => fun_name (fst x)) with (fun x : str * list rstm => fun_name (fst x)).
    rewrite <- (map_map fst fun_name), Ek. cbn [map]. rewrite map_map. exact N. }
  split; [exact Nn|]. intros k f. rewrite (last_ones_in _ _ Nn). rewrite in_map_iff.
  assert (Na : NoDup (map fst (r_functions r ++ [(L "__main__()", or_pass (r_main r))]))) by (rewrite map_app; now apply nodup_snoc).
  assert (Il : forall db, In db l <-> In db (r_functions r ++ [(L "__main__()", or_pass (r_main r))])).
  { intros [d b]. split; intros H.
    - rewrite Forall_forall in Fb. specialize (Fb _ H). now apply last_body_in in Fb.
    - assert (Ik : In d (map fst l)). { rewrite Ek. apply in_app_or in H as [H|[H|[]]]; [right; apply in_map_iff; now exists (d, b)|left; congruence]. }
      apply in_map_iff in Ik as ([d' b'] & E & I1). cbn [fst] in E. subst d'. assert (b' = b); [|now subst].
      rewrite Forall_forall in Fb. specialize (Fb _ I1). apply last_body_in in Fb. cbn [fst snd] in Fb. exact (nodup_key _ _ _ _ _ Na Fb H). }
  split.
  - intros (db & E & H). unfold with_name in E. assert (f = db /\ k = fun_name (fst db)) as [-> ->] by (split; congruence). split; [reflexivity|].
    apply Il in H. apply in_app_or in H as [H|[H|[]]]; [now right|now left].
  - intros [-> H]. exists f. split; [reflexivity|]. apply Il. apply in_or_app. destruct H as [->|H]; [right; now left|now left].
Qed.

Lemma page_described : forall layout pg r given module c, says_page layout pg r -> class_tells r given module c -> describes layout pg c.
Proof.
  intros layout pg r given module c Sp T. destruct T as [l F]. destruct (class_methods_in r l (sp_different _ _ _ Sp) F) as [_ In1]. constructor.
  - cbn [from_ir methods]. apply In1. split; [reflexivity|]. left. f_equal. rewrite (sp_main _ _ _ Sp). destruct layout; reflexivity.
  - intros b f. cbn [from_ir methods]. rewrite In1. split.
    + intros [E [->|H]]; [discriminate E|]. destruct f as [d body]. cbn [fst] in E. destruct (sp_functions _ _ _ Sp d body H) as [(b' & its & Ib & -> & ->)|Nb].
      * rewrite (sp_names _ _ _ Sp b' its Ib) in E. assert (b = b') as -> by now apply app_inv_head in E. now exists its.
      * exfalso. now apply (Nb b).
    + intros (its & Ib & ->). split; [cbn [fst]; symmetry; exact (sp_names _ _ _ Sp b its Ib)|]. right. exact (sp_blocks _ _ _ Sp b its Ib).
Qed.
Lemma objects_plain : forall l, plain _ _ (@objects dcode l).
Proof. intros l k v H. unfold objects in H. apply in_map_iff in H as ([k' v'] & E & _). cbn in E. assert (v = val v') by congruence. now subst. Qed.
Lemma set_in : forall X k (v : X) d k' v', In (k', v') (set k v d) -> (k' = k /\ v' = v) \/ In (k', v') d.
Proof.
  intros X k v. induction d as [|[k0 v0] d IH]; intros k' v' H; cbn [set] in H; [destruct H as [H|[]]; left; split; congruence|].
  destruct (seqb k k0) eqn:E; cbn [In] in *.
  - destruct H as [H|H]; [|tauto]. left. apply seqb_eq in E. split; congruence.
  - destruct H as [H|H]; [tauto|]. destruct (IH _ _ H); tauto.
Qed.
Lemma update_in : forall (d' d : dict (fobj dcode) (str * dcode)) k v, In (k, v) (update _ _ d d') -> In (k, v) d \/ In (k, v) d'.
Proof.
  unfold update. induction d' as [|[k0 v0] d' IH]; intros d k v H; [now left|]. cbn [fold_left fst snd] in H. apply IH in H as [H|H]; [|right; now right].
  apply set_in in H as [[-> ->]|H]; [right; now left|now left].
Qed.
Lemma class_apart : forall layout pg r given module c, says_page layout pg r -> object_names given -> object_names module -> leaves_gettext given -> leaves_gettext module ->
  class_tells r (objects given) (objects module) c ->
  (a_class _ _ c /\ plain _ _ (base_globals _ _ c)) /\
  forall k, In k [L "self"; L "local"; L "gettext"] -> unknown k (methods _ _ c) /\ unknown k (base_globals _ _ c).
Proof.
  intros layout pg r given module c Sp Og Om Gg Gm T. destruct T as [l F]. destruct (class_methods_in r l (sp_different _ _ _ Sp) F) as [Nn In1]. cbn [from_ir methods base_globals].
  unfold a_class. cbn [from_ir methods base_globals].
  assert (Ob : forall k, In k (keys (update _ _ (@objects dcode given) (objects module))) -> In k (map fst given) \/ In k (map fst module)).
  { intros k H. apply in_map_iff in H as ([k' v] & E & H). cbn [fst] in E. subst k'. apply update_in in H as [H|H]; [left|right]; apply in_map_iff in H as ([k' v'] & E & H);
      cbn [fst snd] in E; apply in_map_iff; exists (k', v'); (split; [cbn [fst]; congruence|exact H]). }
  split; [split; [split|]|].
  - unfold last_ones. rewrite sets_new by exact Nn. cbn [app]. unfold a_dict, keys. eapply Permutation_NoDup; [|exact Nn]. apply Permutation_map, Permutation_sym, sort_perm.
  - apply update_dict. apply (objects_free dcode given Og).
  - intros k v H. apply update_in in H as [H|H]; now apply objects_plain in H.
  - intros k Hk. split.
    + intros H. apply in_map_iff in H as ([k' f] & E & H). cbn [fst] in E. subst k'. apply In1 in H as [-> [->|H]].
      * destruct Hk as [Hk|[Hk|[Hk|[]]]]; discriminate Hk.
      * destruct f as [d body]. now apply (sp_apart _ _ _ Sp d body H).
    + intros H. apply Ob in H. destruct Hk as [<-|[<-|[<-|[]]]].
      * destruct Og as [_ Og], Om as [_ Om]. rewrite Forall_forall in *. destruct H as [H|H]; [apply (Og _ H)|apply (Om _ H)]; right; now left.
      * destruct Og as [_ Og], Om as [_ Om]. rewrite Forall_forall in *. destruct H as [H|H]; [apply (Og _ H)|apply (Om _ H)]; now left.
      * destruct H as [H|H]; [now apply Gg|now apply Gm].
Qed.

(** ** Sites *)
Section Site.
Variable expat : str -> result (list M_Dom.event).
Variable compile : str -> compiled.
Variable exec_module : list (list str) -> list (str * value).
Variable g : str.
Variable py : python.
Variable sources : bool -> str -> result xml_source.
Hypothesis Gen : generated_names py (eq g).
Hypothesis Mod : forall l, object_names (exec_module l).
Hypothesis Src : forall fragment name x, sources fragment name = Ok x -> a_source expat compile (eq g) py x.
Notation tells := (source_tells expat compile exec_module (eq g)).

Lemma site_facts : forall xs pages, site expat compile exec_module g sources xs pages -> length xs = length pages /\
  forall i pg x, nth_error pages i = Some pg -> nth_error xs i = Some x ->
    (exists r, xml_says expat compile (eq g) x r /\ says_page (S i =? length pages) pg r /\ leaves_gettext (x_given x) /\ leaves_gettext (exec_module (r_module r))) /\
    (forall x', nth_error xs (S i) = Some x' -> sources false (pg_extends pg) = Ok x').
Proof.
  intros xs pages H. induction H as [x pg r Hx Hp H1 H2|x x' pg r xs pgs Hx Hp H1 H2 E H (Le & IH)].
  - split; [reflexivity|]. intros [|i] pg' x1 E1 E2; cbn [nth_error] in *; [|now destruct i]. assert (pg' = pg /\ x1 = x) as [-> ->] by (split; congruence).
    split; [now exists r|]. intros x' E. discriminate E.
  - split; [cbn [length] in *; now rewrite Le|]. intros [|i] pg' x1 E1 E2; cbn [nth_error] in E1, E2.
    + assert (pg' = pg /\ x1 = x) as [-> ->] by (split; congruence). split; [|intros x2 E3; cbn [nth_error] in E3; congruence]. exists r. split; [exact Hx|].
      destruct pgs as [|pg1 pgs]; [cbn [length] in Le; discriminate|]. cbn [length Nat.eqb]. auto.
    + apply (IH i pg' x1 E1 E2).
Qed.
Lemma site_sources : forall xs pages, site expat compile exec_module g sources xs pages -> forall i x, nth_error xs (S i) = Some x -> a_source expat compile (eq g) py x.
Proof.
  intros xs pages H i x E. destruct (site_facts xs pages H) as [Le F]. assert (Li : i < length xs) by (assert (S i < length xs) by (apply nth_error_Some; congruence); lia).
  destruct (nth_error xs i) as [x0|] eqn:E0; [|apply nth_error_None in E0; lia]. destruct (nth_error pages i) as [pg|] eqn:Ep; [|apply nth_error_None in Ep; lia].
  destruct (F i pg x0 Ep E0) as [_ S1]. specialize (S1 x E). exact (Src _ _ _ S1).
Qed.
(** The classes. *)
Lemma tells_class : forall x r, a_source expat compile (eq g) py x -> xml_says expat compile (eq g) x r -> exists c, tells x c.
Proof.
  intros x r Hx Hr. destruct (sources_mean expat compile (fun _ => Ok []) exec_module (eq g) py Mod Gen sources 0 x [] Src Hx) as (load & _ & [(c & T & _)|[N _]]).
  - split; [constructor|constructor].
  - now exists c.
  - now destruct (N r).
Qed.
Lemma classes : forall xs, (forall x, In x xs -> exists c, tells x c) -> exists cs, Forall2 tells xs cs.
Proof.
  induction xs as [|x xs IH]; intros H; [now exists []|]. destruct (H x (or_introl eq_refl)) as (c & T). destruct IH as (cs & F); [intros y Hy; apply H; now right|].
  exists (c :: cs). now constructor.
Qed.
Lemma f2_length : forall A B (R : A -> B -> Prop) l l', Forall2 R l l' -> length l = length l'.
Proof. intros A B R l l' F. induction F as [|a b l l' H F IH]; cbn [length]; [reflexivity|now rewrite IH]. Qed.
Lemma f2_nth : forall A B (R : A -> B -> Prop) l l', Forall2 R l l' -> forall i b, nth_error l' i = Some b -> exists a, nth_error l i = Some a /\ R a b.
Proof. intros A B R l l' F. induction F as [|a b l l' H F IH]; intros [|i] b' E; try discriminate; cbn [nth_error] in *; [exists a; split; [reflexivity|congruence]|now apply IH]. Qed.
Lemma says_unique : forall x r r', xml_says expat compile (eq g) x r -> xml_says expat compile (eq g) x r' -> r = r'.
Proof. intros x r r' [d r0 Ed T] [d' r1 Ed' T']. assert (d' = d) by congruence. subst. exact (reading_unique _ _ _ _ _ _ T T'). Qed.

Theorem site_shows : forall x xs pages context t, a_source expat compile (eq g) py x -> user_context py context -> reads_blocks py pages ->
  site expat compile exec_module g sources (x :: xs) pages -> page_text py context pages 0 t ->
  exists d0, forall depth, d0 <= depth -> rbind (xml_file expat compile exec_module x) (fun f =>
      run_file py (fun fragment name => rbind (sources fragment name) (xml_file expat compile exec_module)) depth f context) = Ok t.
Proof.
  intros x xs pages context t Hx Hc Rb Hs Ht. destruct (site_facts _ _ Hs) as [Le Facts].
  assert (Ax : forall y, In y (x :: xs) -> a_source expat compile (eq g) py y).
  { intros y Hy. apply In_nth_error in Hy as [[|i] E]; [cbn [nth_error] in E; congruence|]. exact (site_sources _ _ Hs i y E). }
  assert (Sx : forall i y, nth_error (x :: xs) i = Some y -> exists pg, nth_error pages i = Some pg).
  { intros i y E. destruct (nth_error pages i) eqn:Ep; [now eexists|]. apply nth_error_None in Ep. assert (i < length (x :: xs)) by (apply nth_error_Some; congruence). lia. }
  destruct (classes (x :: xs)) as (cs & F).
  { intros y Hy. pose proof (Ax y Hy) as Ay. apply In_nth_error in Hy as [i E]. destruct (Sx i y E) as (pg & Ep). destruct (Facts i pg y Ep E) as [(r & Hr & _) _]. exact (tells_class y r Ay Hr). }
  assert (Lcs : length pages = length cs) by (rewrite <- Le; exact (f2_length _ _ _ _ _ F)).
  destruct cs as [|c0 ps]; [inversion F|].
  assert (All : forall i c, nth_error (c0 :: ps) i = Some c -> exists y pg, nth_error (x :: xs) i = Some y /\ nth_error pages i = Some pg /\ tells y c /\
    exists r, xml_says expat compile (eq g) y r /\ says_page (S i =? length pages) pg r /\ leaves_gettext (x_given y) /\ leaves_gettext (exec_module (r_module r)) /\
      class_tells r (objects (x_given y)) (objects (exec_module (r_module r))) c).
  { intros i c Ec. destruct (f2_nth _ _ _ _ _ F i c Ec) as (y & Ey & Ty). destruct (Sx i y Ey) as (pg & Ep). exists y, pg. split; [exact Ey|]. split; [exact Ep|]. split; [exact Ty|].
    destruct (Facts i pg y Ep Ey) as [(r & Hr & Sp & G1 & G2) _]. exists r. destruct Ty as [r' c Hr' Tc]. assert (r' = r) by exact (says_unique y r' r Hr' Hr). subst r'. auto. }
  assert (Apart : names_apart (c0 :: ps)).
  { assert (Z : forall c, In c (c0 :: ps) -> (a_class _ _ c /\ plain _ _ (base_globals _ _ c)) /\
      forall k, In k [L "self"; L "local"; L "gettext"] -> unknown k (methods _ _ c) /\ unknown k (base_globals _ _ c)).
    { intros c Hc'. apply In_nth_error in Hc' as [i Ec]. destruct (All i c Ec) as (y & pg & Ey & Ep & Ty & r & Hr & Sp & G1 & G2 & Tc).
      apply (class_apart _ pg r (x_given y) (exec_module (r_module r)) c Sp); auto. apply nth_error_In in Ey. apply (Ax y Ey). }
    constructor; intros c; [intros H; now apply Z|intros k H Hk; now apply (Z c H)]. }
  assert (Desc : forall i pg c, nth_error pages i = Some pg -> nth_error (c0 :: ps) i = Some c -> describes (layoutb pages i) pg c).
  { intros i pg c Ep Ec. destruct (All i c Ec) as (y & pg' & Ey & Ep' & Ty & r & Hr & Sp & G1 & G2 & Tc). assert (pg' = pg) by congruence. subst.
    exact (page_described _ pg r _ _ c Sp Tc). }
  destruct (site_renders py context pages c0 ps Lcs Rb Hc Apart Desc t Ht) as (d0 & R). exists d0. intros depth Hd.
  destruct (sources_mean expat compile (fun _ => Ok []) exec_module (eq g) py Mod Gen sources depth x context Src Hx (uc_object _ _ Hc)) as (load & Ld & Res).
  cbv zeta in Res. destruct Res as [(c & Tc & ->)|[N _]].
  - assert (c = c0). { inversion F as [|? ? ? ? T0 _]; subst. exact (source_unique _ _ _ _ _ _ _ Tc T0). } subst c.
    apply R; [exact Hd|]. intros i pg c Ep Ec. destruct (All (S i) c Ec) as (y & pg' & Ey & Ep' & Ty & r & Hr & _).
    assert (Ei : exists y0, nth_error (x :: xs) i = Some y0).
    { destruct (nth_error (x :: xs) i) eqn:E0; [now eexists|]. apply nth_error_None in E0. assert (i < length pages) by (apply nth_error_Some; congruence). lia. }
    destruct Ei as (y0 & Ey0). destruct (Facts i pg y0 Ep Ey0) as [_ Sn]. specialize (Sn y Ey). specialize (Ld false (pg_extends pg)). rewrite Sn in Ld.
    destruct Ld as [(c' & E' & T')|[N _]]; [|now destruct (N r)]. rewrite E'. f_equal. exact (source_unique _ _ _ _ _ _ _ T' Ty).
  - destruct (Sx 0 x eq_refl) as (pg & Ep). destruct (Facts 0 pg x Ep eq_refl) as [(r & Hr & _) _]. now destruct (N r).
Qed.
End Site.
