(** * Arguments: proofs *)

From Coq Require Import Ascii String List NArith ZArith Bool Lia Arith.
From Verif Require Import PyStr PyStrLemmas M_Template S_Template P_Template M_Args S_Args.
Import ListNotations.
Open Scope list_scope.
Open Scope nat_scope.

Lemma set_keys : forall A k (v : A) d, In k (map fst d) -> map fst (set k v d) = map fst d.
Proof.
  intros A k v d. induction d as [|[k' v'] d IH]; intros I1; [destruct I1|]. cbn [set map fst] in *. destruct (seqb_spec k k') as [->|Ne]; [reflexivity|].
  cbn [map fst]. f_equal. apply IH. destruct I1 as [E|I1]; [now destruct Ne|exact I1].
Qed.
Lemma get_nth : forall A k (v : A) d j, NoDup (map fst d) -> nth_error d j = Some (k, v) -> get k d = Some v.
Proof. intros A k v d j N H. apply get_in; [exact N|]. eapply nth_error_In; eassumption. Qed.
Lemma nth_get : forall A k (d : list (str * A)) j, NoDup (map fst d) -> nth_error (map fst d) j = Some k -> exists v, nth_error d j = Some (k, v) /\ get k d = Some v.
Proof.
  intros A k d j N H. rewrite nth_error_map in H. destruct (nth_error d j) as [[k' v]|] eqn:E; [|discriminate]. cbn in H. injection H as ->.
  exists v. split; [reflexivity|]. eapply get_nth; eassumption.
Qed.

Lemma NoDup_app_remove_r : forall A (l l' : list A), NoDup (l ++ l') -> NoDup l.
Proof.
  induction l as [|a l IH]; intros l' N; [constructor|]. cbn [app] in N. apply NoDup_cons_iff in N as [Na N]. apply NoDup_cons_iff.
  split; [intros I1; apply Na, in_app_iff; now left|now apply (IH l')].
Qed.
Lemma NoDup_app_remove_l : forall A (l l' : list A), NoDup (l ++ l') -> NoDup l'.
Proof. induction l as [|a l IH]; intros l' N; [exact N|]. cbn [app] in N. apply NoDup_cons_iff in N as [_ N]. now apply IH. Qed.

Section Values.
Variable V code : Type.
Notation pyfun := (pyfun V code).
Notation slots := (list (str * option V)).

Definition free (named : list str) (varkw : bool) (sl : slots) (kv : str * V) : bool :=
  if smem (fst kv) named then match get (fst kv) sl with Some (Some _) => false | _ => true end else varkw.
Definition put_kw (named : list str) (sl : slots) (kv : str * V) : slots :=
  if smem (fst kv) named then set (fst kv) (Some (snd kv)) sl else sl.
Lemma give_is : forall named varkw kws sl others, NoDup (map fst kws) ->
  give V named varkw kws sl others =
  if forallb (free named varkw sl) kws
  then Ok (fold_left (put_kw named) kws sl, others ++ filter (fun kv => negb (smem (fst kv) named)) kws) else Raise "TypeError".
Proof.
  intros named varkw kws. induction kws as [|[k v] kws IH]; intros sl others N; [cbn; now rewrite app_nil_r|].
  cbn [map fst] in N. apply NoDup_cons_iff in N as [Nk N]. cbn [give forallb filter fold_left fst]. unfold free at 1, put_kw at 2. cbn [fst snd].
  destruct (smem k named) eqn:Ek; cbn [negb].
  - destruct (get k sl) as [[x|]|] eqn:Eg; [reflexivity| |].
    all: rewrite IH by exact N; cbn [andb].
    all: assert (F : forallb (free named varkw (set k (Some v) sl)) kws = forallb (free named varkw sl) kws).
    1,3: assert (G : forall l, ~ In k (map fst l) -> forallb (free named varkw (set k (Some v) sl)) l = forallb (free named varkw sl) l).
    1,3: intros l; induction l as [|[k' v'] l IHl]; intros Nl; [reflexivity|]; cbn [forallb]; rewrite IHl by (intros X; apply Nl; now right); f_equal;
         unfold free; cbn [fst]; rewrite get_set; destruct (seqb_spec k' k) as [->|_]; [destruct Nl; now left|reflexivity].
    1,2: now apply G.
    all: now rewrite F.
  - destruct varkw; cbn [andb]; [|reflexivity]. rewrite IH by exact N. now rewrite <- app_assoc.
Qed.
Lemma fold_keys : forall named kws sl, (forall k, In k named -> In k (map fst sl)) -> map fst (fold_left (put_kw named) kws sl) = map fst sl.
Proof.
  intros named kws. induction kws as [|[k v] kws IH]; intros sl H; [reflexivity|]. cbn [fold_left]. unfold put_kw at 2. cbn [fst snd].
  destruct (smem k named) eqn:Ek; [|now apply IH]. apply smem_In in Ek. assert (K : map fst (set k (Some v) sl) = map fst sl) by (apply set_keys; auto).
  rewrite IH; [exact K|]. intros k' I1. rewrite K. auto.
Qed.
Lemma fold_get : forall named kws sl p, NoDup (map fst kws) ->
  get p (fold_left (put_kw named) kws sl) = match (if smem p named then get p kws else None) with Some v => Some (Some v) | None => get p sl end.
Proof.
  intros named kws. induction kws as [|[k v] kws IH]; intros sl p N; [cbn; now destruct (smem p named)|].
  cbn [map fst] in N. apply NoDup_cons_iff in N as [Nk N]. cbn [fold_left]. rewrite IH by exact N. unfold put_kw. cbn [fst snd get].
  destruct (seqb_spec p k) as [->|Ne].
  - assert (G : get k kws = None) by now apply get_none. rewrite G. destruct (smem k named); [|reflexivity]. rewrite get_set. now rewrite seqb_refl.
  - destruct (smem p named) eqn:Ep; [destruct (get p kws); [reflexivity|]|]; destruct (smem k named); try reflexivity; rewrite get_set;
      destruct (seqb_spec p k); congruence.
Qed.
Lemma fill_keys : forall ps (args : list V), map fst (fill V ps args) = ps.
Proof. induction ps as [|p ps IH]; intros [|a args]; cbn [fill map fst]; try reflexivity; now rewrite IH. Qed.
Lemma fill_nth : forall ps (args : list V) j p, nth_error ps j = Some p -> nth_error (fill V ps args) j = Some (p, nth_error args j).
Proof.
  induction ps as [|q ps IH]; intros args j p H; [now destruct j|]. destruct j as [|j]; cbn [nth_error] in H.
  - injection H as ->. destruct args; reflexivity.
  - destruct args as [|a args]; cbn [fill nth_error]; rewrite (IH _ _ _ H); [now destruct j|reflexivity].
Qed.
Lemma complete_ok : forall sl default i l, complete V sl default i = Ok l -> map fst l = map fst sl /\
  forall j p o, nth_error sl j = Some (p, o) -> exists v, nth_error l j = Some (p, One V v) /\ (o = Some v \/ o = None /\ default (i + j) p = Some v).
Proof.
  induction sl as [|[p o] sl IH]; intros default i l H; cbn [complete] in H.
  - injection H as <-. split; [reflexivity|]. intros [|j] p o H; discriminate H.
  - destruct (match o with Some v => Some v | None => default i p end) as [v|] eqn:Ev; [|discriminate].
    destruct (complete V sl default (S i)) as [l'|e] eqn:E; [|discriminate]. cbn [rmap] in H. injection H as <-.
    destruct (IH _ _ _ E) as [K N]. split; [cbn [map fst]; now rewrite K|]. intros [|j] q o' H; cbn [nth_error] in *.
    + injection H as -> ->. exists v. split; [reflexivity|]. rewrite Nat.add_0_r. destruct o'; [left; congruence|right; auto].
    + destruct (N j q o' H) as (w & E1 & E2). exists w. split; [exact E1|]. replace (i + S j) with (S i + j) by lia. exact E2.
Qed.
Lemma complete_total : forall sl default i, (forall j p, nth_error sl j = Some (p, None) -> exists v, default (i + j) p = Some v) -> exists l, complete V sl default i = Ok l.
Proof.
  induction sl as [|[p o] sl IH]; intros default i H; [now exists []|]. cbn [complete].
  assert (Ev : exists v, match o with Some v => Some v | None => default i p end = Some v).
  { destruct o as [v|]; [now exists v|]. destruct (H 0 p eq_refl) as [v Ev]. exists v. now rewrite Nat.add_0_r in Ev. }
  destruct Ev as [v ->]. destruct (IH default (S i)) as [l E].
  - intros j q Hj. replace (S i + j) with (i + S j) by lia. now apply H.
  - exists ((p, One V v) :: l). now rewrite E.
Qed.
Lemma complete_error : forall sl default i e, complete V sl default i = Raise e -> e = "TypeError"%string.
Proof.
  induction sl as [|[p o] sl IH]; intros default i e H; [discriminate|]. cbn [complete] in H.
  destruct (match o with Some v => Some v | None => default i p end); [|congruence]. destruct (complete V sl default (S i)) as [l|e'] eqn:E; [discriminate|].
  cbn [rmap] in H. apply IH in E. congruence.
Qed.

Variable f : pyfun.
Variable args : list V.
Variable kws : list (str * V).
Notation s := (f_sig V code f).
Notation defaults := (f_defaults V code f).
Notation kwdefaults := (f_kwdefaults V code f).
Notation pos := (positional s).
Notation named := (by_keyword s).
Notation receives := (receives V s defaults kwdefaults args kws).
Notation allowed := (allowed V s defaults kwdefaults args kws).
Hypothesis Np : NoDup (parameters s).
Hypothesis Nk : NoDup (map fst kws).
Hypothesis Nd : NoDup (map fst kwdefaults).
Hypothesis Ld : length defaults <= length pos.

Lemma NoDup_slots : NoDup (pos ++ s_kwonly s).
Proof. unfold parameters in Np. rewrite app_assoc in Np. now apply NoDup_app_remove_r in Np. Qed.
Notation slots0 := (fill V pos args ++ map (fun k => (k, None)) (s_kwonly s)).
Lemma slots0_keys : map fst slots0 = pos ++ s_kwonly s.
Proof. rewrite map_app, fill_keys, map_map. cbn [fst]. now rewrite map_id. Qed.
Lemma slots0_pos : forall j p, nth_error pos j = Some p -> nth_error slots0 j = Some (p, nth_error args j) /\ get p slots0 = Some (nth_error args j).
Proof.
  intros j p H. assert (E : nth_error slots0 j = Some (p, nth_error args j)).
  { rewrite nth_error_app1; [now apply fill_nth|]. rewrite <- (map_length fst), fill_keys. apply nth_error_Some. congruence. }
  split; [exact E|]. apply (get_nth _ _ _ _ j); [rewrite slots0_keys; apply NoDup_slots|exact E].
Qed.
Lemma slots0_kw : forall p, In p (s_kwonly s) -> get p slots0 = Some None.
Proof.
  intros p I1. apply get_in; [unfold a_dict, keys; rewrite slots0_keys; apply NoDup_slots|]. apply in_app_iff. right. apply in_map_iff. now exists p.
Qed.
Lemma get_kws : forall p v, get p kws = Some v <-> In (p, v) kws.
Proof. intros p v. now apply get_in. Qed.
(** What the slot of a parameter holds. *)
Lemma position_unique : forall i j p, nth_error pos i = Some p -> nth_error pos j = Some p -> i = j.
Proof.
  intros i j p H1 H2. pose proof NoDup_slots as N. apply NoDup_app_remove_r in N. apply (proj1 (NoDup_nth_error pos) N); [apply nth_error_Some; congruence|congruence].
Qed.
Lemma not_both : forall p, In p pos -> ~ In p (s_kwonly s).
Proof.
  intros p H1 H2. pose proof NoDup_slots as N. revert N H1. generalize pos. intros l. induction l as [|q l IH]; intros N H1; [destruct H1|].
  cbn [app] in N. apply NoDup_cons_iff in N as [Nq N]. destruct H1 as [->|H1]; [apply Nq, in_app_iff; now right|now apply IH].
Qed.
Definition in_slot (p : str) (o : option V) : Prop :=
  match o with
  | Some v => given_by_position V s args p v \/ given_by_keyword V s kws p v
  | None => forall v, ~ given_by_position V s args p v /\ ~ given_by_keyword V s kws p v
  end.
Notation slots1 := (fold_left (put_kw named) kws slots0).
Lemma named_slots : forall k, In k named -> In k (map fst slots0).
Proof. intros k I1. rewrite slots0_keys. unfold by_keyword, positional in *. rewrite !in_app_iff in *. tauto. Qed.
Lemma slots1_keys : map fst slots1 = pos ++ s_kwonly s.
Proof. rewrite fold_keys; [apply slots0_keys|apply named_slots]. Qed.
Lemma slots1_get : forall p o, get p slots1 = Some o -> in_slot p o.
Proof.
  intros p o H. rewrite fold_get in H by exact Nk.
  assert (P0 : forall o, get p slots0 = Some o -> match o with Some v => given_by_position V s args p v | None => forall v, ~ given_by_position V s args p v end).
  { intros o' H'. assert (I1 : In p (pos ++ s_kwonly s)). { rewrite <- slots0_keys. apply get_some_in in H'. apply in_map_iff. now exists (p, o'). }
    apply in_app_iff in I1 as [I1|I1].
    - apply In_nth_error in I1 as [j Ej]. destruct (slots0_pos j p Ej) as [_ E]. rewrite E in H'. injection H' as <-.
      destruct (nth_error args j) as [v|] eqn:Ea; [now exists j|]. intros v (j' & E1 & E2). assert (j' = j) as -> by (eapply position_unique; eassumption). congruence.
    - rewrite (slots0_kw p I1) in H'. injection H' as <-. intros v (j' & E1 & E2). apply nth_error_In in E1. now apply (not_both p). }
  destruct (smem p named) eqn:Ep.
  - destruct (get p kws) as [v|] eqn:Eg.
    + injection H as <-. right. split; [now apply smem_In|]. now apply get_kws.
    + specialize (P0 _ H). destruct o as [v|]; [now left|]. intros v. split; [apply P0|]. intros [_ I1]. apply get_kws in I1. congruence.
  - specialize (P0 _ H). destruct o as [v|]; [now left|]. intros v. split; [apply P0|]. intros [I1 _]. apply smem_In in I1. congruence.
Qed.
(** Defaults. *)
Notation default := (fun i p => if i <? length pos then positional_default V code f (length pos) i else get p kwdefaults).
Lemma default_is : forall j p v, nth_error (pos ++ s_kwonly s) j = Some p -> (default j p = Some v <-> has_default V s defaults kwdefaults p v).
Proof.
  intros j p v H. cbv beta. destruct (Nat.ltb_spec j (length pos)) as [Lt|Ge].
  - rewrite nth_error_app1 in H by exact Lt. unfold positional_default. split.
    + destruct (Nat.ltb_spec j (length pos - length defaults)) as [L1|G1]; [discriminate|]. intros Hv. left.
      apply nth_error_split in H as (b & a & E1 & Lb). apply nth_error_split in Hv as (b' & a' & E2 & Lb').
      exists b, a, b', a'. split; [exact E1|]. split; [exact E2|]. apply (f_equal (@length _)) in E1, E2. rewrite app_length in E1, E2. cbn [length] in E1, E2. lia.
    + intros [(b & a & b' & a' & E1 & E2 & El)|[I1 _]]; [|exfalso; apply (not_both p); [eapply nth_error_In; eassumption|exact I1]].
      assert (j = length b). { apply (position_unique j (length b) p); [exact H|]. rewrite E1, nth_error_app2, Nat.sub_diag; [reflexivity|lia]. }
      subst j. assert (L1 := f_equal (@length _) E1). assert (L2 := f_equal (@length _) E2). rewrite app_length in L1, L2. cbn [length] in L1, L2.
      destruct (Nat.ltb_spec (length b) (length pos - length defaults)) as [X|X]; [lia|].
      replace (length b - (length pos - length defaults)) with (length b') by lia. rewrite E2, nth_error_app2, Nat.sub_diag; [reflexivity|lia].
  - rewrite nth_error_app2 in H by lia. apply nth_error_In in H. rewrite get_in by exact Nd. split; [intros I1; right; now split|].
    intros [(b & a & b' & a' & E1 & _)|[_ I1]]; [|exact I1]. exfalso. apply (not_both p); [rewrite E1; apply in_app_iff; right; now left|exact H].
Qed.

Lemma give_here : give V named (match s_varkw s with Some _ => true | None => false end) kws slots0 [] =
  if forallb (free named (match s_varkw s with Some _ => true | None => false end) slots0) kws
  then Ok (slots1, filter (fun kv => negb (smem (fst kv) named)) kws) else Raise "TypeError".
Proof. now rewrite give_is by exact Nk. Qed.
Lemma free_iff : forallb (free named (match s_varkw s with Some _ => true | None => false end) slots0) kws = true <->
  (s_varkw s = None -> forall k, In k (map fst kws) -> In k named) /\ (forall p v v', given_by_position V s args p v -> ~ given_by_keyword V s kws p v').
Proof.
  rewrite forallb_forall. split.
  - intros H. split.
    + intros Ev k I1. apply in_map_iff in I1 as ([k' v] & <- & I1). specialize (H _ I1). unfold free in H. cbn [fst] in *. rewrite Ev in H.
      destruct (smem k' named) eqn:E; [now apply smem_In|discriminate].
    + intros p v v' (j & E1 & E2) [I1 I2]. specialize (H _ I2). unfold free in H. cbn [fst] in H. apply smem_In in I1. rewrite I1 in H.
      destruct (slots0_pos j p E1) as [_ E]. now rewrite E, E2 in H.
  - intros [H1 H2] [k v] I1. unfold free. cbn [fst]. destruct (smem k named) eqn:Ek.
    + destruct (get k slots0) as [[x|]|] eqn:Eg; [|reflexivity|reflexivity]. exfalso. apply smem_In in Ek.
      assert (I2 : In k (pos ++ s_kwonly s)). { rewrite <- slots0_keys. apply get_some_in in Eg. apply in_map_iff. now exists (k, Some x). }
      apply in_app_iff in I2 as [I2|I2]; [|rewrite (slots0_kw k I2) in Eg; discriminate]. apply In_nth_error in I2 as [j Ej].
      destruct (slots0_pos j k Ej) as [_ E]. rewrite E in Eg. apply (H2 k x v); [exists j; split; [exact Ej|congruence]|now split].
    + destruct (s_varkw s) eqn:Ev; [reflexivity|]. exfalso. apply smem_notIn in Ek. apply Ek, H1; [reflexivity|]. apply in_map_iff. now exists (k, v).
Qed.
Definition extras : list (str * bound V) :=
  match s_varargs s with Some p => [(p, Rest V (skipn (length pos) args))] | None => [] end ++
  match s_varkw s with Some p => [(p, Others V (filter (fun kv => negb (smem (fst kv) named)) kws))] | None => [] end.
Lemma bind_is : bind_arguments V code f args kws =
  if forallb (free named (match s_varkw s with Some _ => true | None => false end) slots0) kws then
    if (length pos <? length args) && (match s_varargs s with Some _ => false | None => true end) then Raise "TypeError"
    else rmap (fun l => l ++ extras) (complete V slots1 default 0)
  else Raise "TypeError".
Proof. unfold bind_arguments. cbv zeta. change (s_posonly s ++ s_normal s) with pos. change (s_normal s ++ s_kwonly s) with named. rewrite give_here. now destruct (forallb _ kws). Qed.

Lemma bind_sound : forall env, bind_arguments V code f args kws = Ok env ->
  allowed /\ map fst env = parameters s /\ forall p b, In (p, b) env -> receives p b.
Proof.
  intros env H. rewrite bind_is in H. destruct (forallb _ kws) eqn:Ef; [|discriminate]. apply free_iff in Ef as [A2 A3].
  destruct (_ && _) eqn:Em; [discriminate|]. destruct (complete V slots1 default 0) as [l|] eqn:Ec; [|discriminate]. cbn [rmap] in H. injection H as <-.
  destruct (complete_ok _ _ _ _ Ec) as [K N]. rewrite slots1_keys in K.
  assert (Ke : map fst (l ++ extras) = parameters s).
  { rewrite map_app, K. unfold parameters, extras. rewrite <- !app_assoc. do 2 f_equal. rewrite map_app. f_equal; [now destruct (s_varargs s)|now destruct (s_varkw s)]. }
  assert (R : forall p b, In (p, b) (l ++ extras) -> receives p b).
  { intros p b I1. apply in_app_iff in I1 as [I1|I1].
    - apply In_nth_error in I1 as [j Ej]. assert (Kj : nth_error (map fst slots1) j = Some p) by (rewrite slots1_keys, <- K, nth_error_map, Ej; reflexivity).
      destruct (nth_get _ _ _ _ ltac:(rewrite slots1_keys; apply NoDup_slots) Kj) as (o & Eo & Eg).
      destruct (N j p o Eo) as (v & Ev & Ho). assert (b = One V v) as -> by congruence. apply slots1_get in Eg.
      rewrite slots1_keys in Kj. destruct Ho as [->|[-> Hd]].
      + destruct Eg as [G|G]; [now apply r_position|now apply r_keyword].
      + cbn [Nat.add] in Hd. apply (default_is j p v Kj) in Hd. apply r_default; try (intros v'; apply Eg); [eapply nth_error_In; eassumption|exact Hd].
    - unfold extras in I1. apply in_app_iff in I1 as [I1|I1].
      + destruct (s_varargs s) eqn:Ev; [|destruct I1]. destruct I1 as [E|[]]. injection E as <- <-. now apply r_rest.
      + destruct (s_varkw s) eqn:Ev; [|destruct I1]. destruct I1 as [E|[]]. injection E as <- <-. now apply r_others. }
  split; [|now split]. split; [|split; [exact A2|split; [exact A3|]]].
  - intros Ev. rewrite Ev, andb_true_r in Em. now apply Nat.ltb_ge.
  - intros p I1. rewrite <- Ke in I1. apply in_map_iff in I1 as ([q b] & <- & I1). exists b. now apply R.
Qed.
Lemma bind_total : allowed -> exists env, bind_arguments V code f args kws = Ok env.
Proof.
  intros (A1 & A2 & A3 & A4). rewrite bind_is. rewrite (proj2 free_iff) by now split.
  assert (Em : (length pos <? length args) && (match s_varargs s with Some _ => false | None => true end) = false).
  { destruct (s_varargs s); [now rewrite andb_false_r|]. rewrite andb_true_r. apply Nat.ltb_ge. now apply A1. }
  rewrite Em. destruct (complete_total slots1 default 0) as [l E]; [|rewrite E; now eexists].
  intros j p Ej. assert (Kj : nth_error (map fst slots1) j = Some p) by now rewrite nth_error_map, Ej. rewrite slots1_keys in Kj.
  assert (Eg : in_slot p None) by (apply slots1_get; eapply get_nth; [rewrite slots1_keys; apply NoDup_slots|eassumption]). cbn [in_slot] in Eg.
  assert (I1 : In p (pos ++ s_kwonly s)) by (eapply nth_error_In; eassumption).
  destruct (A4 p) as [b Rb]; [unfold parameters; rewrite app_assoc; apply in_app_iff; now left|].
  assert (X : forall q, In q (option_list (s_varargs s) ++ option_list (s_varkw s)) -> q <> p).
  { intros q Iq ->. pose proof Np as N. unfold parameters in N. rewrite app_assoc in N. apply in_split in I1 as (l1 & l2 & E1). rewrite E1, <- app_assoc in N.
    cbn [app] in N. apply NoDup_remove_2 in N. apply N. rewrite !in_app_iff. right. right. now apply in_app_iff. }
  destruct Rb as [v G|v G|v _ _ _ D|Ev|Ev].
  - now destruct (Eg v).
  - now destruct (Eg v).
  - exists v. now apply default_is.
  - exfalso. apply (X p); [rewrite Ev; now left|reflexivity].
  - exfalso. apply (X p); [rewrite Ev; apply in_app_iff; right; now left|reflexivity].
Qed.
Lemma bind_error : forall e, bind_arguments V code f args kws = Raise e -> e = "TypeError"%string.
Proof.
  intros e H. rewrite bind_is in H. destruct (forallb _ kws); [|congruence]. destruct (_ && _); [congruence|].
  destruct (complete V slots1 default 0) as [l|e'] eqn:E; [discriminate|]. cbn [rmap] in H. apply complete_error in E. congruence.
Qed.
(** Of what a parameter receives there is one only. *)
Lemma receives_unique : allowed -> forall p b b', receives p b -> receives p b' -> b = b'.
Proof.
  intros A p b b' R1 R2. destruct (bind_total A) as [env E]. destruct (bind_sound env E) as (_ & K & R).
  assert (X : forall q, In q (option_list (s_varargs s) ++ option_list (s_varkw s)) -> ~ In q (pos ++ s_kwonly s)).
  { intros q Iq I1. pose proof Np as N. unfold parameters in N. rewrite app_assoc in N. apply in_split in I1 as (l1 & l2 & E1). rewrite E1, <- app_assoc in N.
    cbn [app] in N. apply NoDup_remove_2 in N. apply N. rewrite !in_app_iff. right. right. now apply in_app_iff. }
  assert (Y : forall q, s_varargs s = Some q -> s_varkw s = Some q -> False).
  { intros q E1 E2. pose proof Np as N. unfold parameters in N. rewrite E1, E2, app_assoc in N. apply NoDup_app_remove_l in N. cbn in N.
    apply NoDup_cons_iff in N as [N _]. apply N. now left. }
  assert (P1 : forall q v, given_by_position V s args q v -> In q (pos ++ s_kwonly s)) by (intros q v (j & H & _); apply in_app_iff; left; eapply nth_error_In; eassumption).
  assert (P2 : forall q v, given_by_keyword V s kws q v -> In q (pos ++ s_kwonly s)).
  { intros q v [H _]. unfold by_keyword, positional in *. rewrite !in_app_iff in *. tauto. }
  assert (X1 : s_varargs s = Some p -> ~ In p (pos ++ s_kwonly s)) by (intros Ev; apply X; rewrite Ev; now left).
  assert (X2 : s_varkw s = Some p -> ~ In p (pos ++ s_kwonly s)) by (intros Ev; apply X; rewrite Ev; apply in_app_iff; right; now left).
  assert (U1 : forall v v', given_by_position V s args p v -> given_by_position V s args p v' -> v = v').
  { intros v v' (j & E1 & E2) (j' & E3 & E4). assert (j' = j) as -> by (eapply position_unique; eassumption). congruence. }
  assert (U2 : forall v v', given_by_keyword V s kws p v -> given_by_keyword V s kws p v' -> v = v').
  { intros v v' [_ I1] [_ I2]. apply get_kws in I1, I2. congruence. }
  assert (U3 : forall v v', given_by_position V s args p v -> given_by_keyword V s kws p v' -> False).
  { intros v v' G1 G2. destruct A as (_ & _ & A3 & _). now apply (A3 p v v'). }
  destruct R1 as [v G|v G|v I1 N1 N2 D|Ev|Ev], R2 as [v' G'|v' G'|v' I1' N1' N2' D'|Ev'|Ev'];
    try reflexivity; try (exfalso; unfold not in *; eauto 7; fail).
  - f_equal. eauto.
  - f_equal. eauto.
  - f_equal. apply In_nth_error in I1 as [j Ej]. apply (default_is j p v Ej) in D. apply (default_is j p v' Ej) in D'. congruence.
Qed.
Theorem bind_exact : forall env, bind_arguments V code f args kws = Ok env <->
  allowed /\ map fst env = parameters s /\ forall p b, In (p, b) env -> receives p b.
Proof.
  intros env. split; [apply bind_sound|]. intros (A & K & R). destruct (bind_total A) as [env' E]. rewrite E. f_equal.
  destruct (bind_sound env' E) as (_ & K' & R').
  assert (U : forall l l', map fst l = map fst l' -> (forall p b, In (p, b) l -> receives p b) -> (forall p b, In (p, b) l' -> receives p b) -> l = l').
  { induction l as [|[p b] l IH]; intros [|[p' b'] l'] El H1 H2; try discriminate; [reflexivity|]. cbn [map fst] in El. injection El as -> El.
    assert (b = b') as -> by (apply (receives_unique A p'); [apply H1|apply H2]; now left). f_equal. apply IH; [exact El| |]; intros; [apply H1|apply H2]; now right. }
  apply U; [congruence|exact R'|exact R].
Qed.
End Values.

(** ** Functions that hand on their arguments *)
Section Handing.
Variable V code : Type.
Variable w : code.
Lemma handed_plain : forall args (kws : list (str * V)), NoDup (map fst kws) -> handed_on V code w [] [] args kws = Ok (args, kws).
Proof.
  intros args kws N. unfold handed_on, bind_arguments. cbn [f_sig s_posonly s_normal s_kwonly s_varargs s_varkw app fill map length].
  rewrite give_is by exact N.
  assert (F : forallb (free V [] true []) kws = true) by (apply forallb_forall; intros [k v] _; reflexivity). rewrite F. cbn [rbind fst snd].
  rewrite andb_false_r. assert (P : forall sl : list (str * option V), fold_left (put_kw V []) kws sl = sl) by (clear; induction kws as [|[k v] l IH]; intros sl; [reflexivity|apply IH]).
  rewrite P. cbn [complete rmap app]. cbn [rbind get]. change (seqb (L "kwargs") (L "args")) with false. rewrite !seqb_refl. cbn [skipn].
  assert (E : filter (fun kv : str * V => negb (smem (fst kv) [])) kws = kws) by (clear; induction kws as [|[k v] l IH]; [reflexivity|cbn [filter fst]; change (smem k []) with false; cbn [negb]; now rewrite IH]).
  now rewrite E.
Qed.
Lemma handed_self : forall this args (kws : list (str * V)), NoDup (map fst kws) ->
  handed_on V code w [L "self"] [this] args kws = if smem (L "self") (map fst kws) then Raise "TypeError" else Ok (args, kws).
Proof.
  intros this args kws N. unfold handed_on, bind_arguments. cbn [f_sig s_posonly s_normal s_kwonly s_varargs s_varkw app fill map length].
  rewrite give_is by exact N.
  assert (S1 : forall k, smem k [L "self"] = seqb k (L "self")) by (intros k; cbn [smem existsb]; apply orb_false_r).
  assert (F : forallb (free V [L "self"] true [(L "self", Some this)]) kws = negb (smem (L "self") (map fst kws))).
  { clear N. induction kws as [|[k v] l IH]; [reflexivity|]. cbn [forallb map fst]. unfold free at 1. cbn [fst]. rewrite S1, IH.
    change (smem (L "self") (k :: map fst l)) with (seqb (L "self") k || smem (L "self") (map fst l)). cbn [get].
    destruct (seqb_spec k (L "self")) as [->|Ne]; [rewrite !seqb_refl; reflexivity|]. destruct (seqb_spec (L "self") k) as [E|_]; [now destruct Ne|reflexivity]. }
  rewrite F. destruct (smem (L "self") (map fst kws)) eqn:E; cbn [negb]; [reflexivity|]. cbn [rbind fst snd]. rewrite andb_false_r. apply smem_notIn in E.
  assert (Ns : forall k v, In (k, v) kws -> seqb k (L "self") = false).
  { intros k v I1. destruct (seqb_spec k (L "self")) as [->|Ne]; [|reflexivity]. exfalso. apply E, in_map_iff. now exists (L "self", v). }
  clear N E F.
  assert (P : forall sl, fold_left (put_kw V [L "self"]) kws sl = sl).
  { induction kws as [|[k v] l IH]; intros sl; [reflexivity|]. cbn [fold_left]. unfold put_kw at 2. cbn [fst]. rewrite S1, (Ns k v) by now left.
    apply IH. intros k' v' I1. apply (Ns k' v'). now right. }
  rewrite P. cbn [complete rmap app rbind get]. change (seqb (L "args") (L "self")) with false. change (seqb (L "kwargs") (L "self")) with false. change (seqb (L "kwargs") (L "args")) with false.
  rewrite !seqb_refl. cbv iota. cbn [skipn]. repeat f_equal. clear P.
  induction kws as [|[k v] l IH]; [reflexivity|]. cbn [filter fst]. rewrite S1, (Ns k v) by now left. cbn [negb]. f_equal. apply IH. intros k' v' I1. apply (Ns k' v'). now right.
Qed.
Lemma with_self : forall this args (kws : list (str * V)), NoDup (map fst kws) ->
  call_with_self V code w this args kws = if smem (L "self") (map fst kws) then Raise "TypeError" else Ok (args, kws).
Proof.
  intros this args kws N. unfold call_with_self. rewrite handed_self by exact N. destruct (smem _ _); [reflexivity|]. cbn [rbind fst snd]. now apply handed_plain.
Qed.
Lemma inherited_is : forall through this f globals args (kws : list (str * V)), NoDup (map fst kws) ->
  call_inherited V code w through this f globals args kws =
  if smem (L "self") (map fst kws) then Raise "TypeError" else call_python V code (bind_globals V code f globals) args kws.
Proof.
  intros through this f globals args kws N. induction through as [|t l IH]; cbn [call_inherited].
  - unfold call_template_function. rewrite with_self by exact N. now destruct (smem _ _).
  - rewrite with_self by exact N. destruct (smem (L "self") (map fst kws)); [reflexivity|]. cbn [rbind fst snd]. rewrite handed_plain by exact N. exact IH.
Qed.
Lemma decorated_is : forall f args (kws : list (str * V)), NoDup (map fst kws) -> call_decorated V code w f args kws = call_python V code f args kws.
Proof. intros f args kws N. unfold call_decorated. now rewrite handed_plain by exact N. Qed.
End Handing.
