(** * Text templates: the parsed template *)

From Coq Require Import Ascii String List Arith NArith ZArith Bool Lia.
From Verif Require Import PyStr PyStrLemmas Regex M_NameGen M_IR M_Text S_Text P_Text4 P_Text5.
Import ListNotations.
Open Scope list_scope.

(** Of several definitions the last counts. *)
Lemma first_names_in : forall ds seen n, In n (first_names seen ds) <-> (In n (map fst ds) /\ smem n seen = false).
Proof.
  induction ds as [|[k v] ds IH]; intros seen n; cbn [first_names map fst In]; [tauto|].
  destruct (smem k seen) eqn:E.
  - rewrite IH. split; [tauto|]. intros [[<-|H] Hs]; [congruence|tauto].
  - cbn [In]. rewrite IH. cbn [smem existsb]. unfold smem. cbn [existsb]. rewrite orb_false_iff. fold (smem n seen). split.
    + intros [<-|(H1 & H2 & H3)]; [tauto|]. tauto.
    + intros [[<-|H] Hs]; [now left|]. destruct (seqb n k) eqn:Enk; [apply seqb_eq in Enk; left; congruence|right; tauto].
Qed.
Lemma first_names_nodup : forall ds seen, NoDup (first_names seen ds).
Proof.
  induction ds as [|[k v] ds IH]; intros seen; cbn [first_names]; [constructor|].
  destruct (smem k seen) eqn:E; [apply IH|]. constructor; [|apply IH].
  rewrite first_names_in. intros [_ H]. unfold smem in H. cbn [existsb] in H. rewrite seqb_refl in H. discriminate.
Qed.
Lemma first_names_snoc : forall ds seen k v,
  first_names seen (ds ++ [(k, v)]) =
  first_names seen ds ++ (if smem k seen || smem k (map fst ds) then [] else [k]).
Proof.
  induction ds as [|[k' v'] ds IH]; intros seen k v; cbn [first_names app map fst].
  - unfold smem at 3. cbn [existsb]. rewrite orb_false_r. reflexivity.
  - destruct (smem k' seen) eqn:E; rewrite IH.
    + f_equal. unfold smem at 4. cbn [existsb]. fold (smem k (map fst ds)).
      destruct (seqb k k') eqn:Ek; [apply seqb_eq in Ek; subst; rewrite E; reflexivity|reflexivity].
    + cbn [app]. f_equal. f_equal. unfold smem at 1 4. cbn [existsb]. fold (smem k (map fst ds)). fold (smem k seen).
      destruct (seqb k k'), (smem k seen), (smem k (map fst ds)); reflexivity.
Qed.
Lemma smem_spec : forall n l, smem n l = true <-> In n l.
Proof.
  intros n l. unfold smem. rewrite existsb_exists. split.
  - intros (x & H & E). apply seqb_eq in E. now subst.
  - intros H. exists n. split; [exact H|apply seqb_refl].
Qed.

Lemma set_fun_map : forall k v (g : str -> list (option node)) names, NoDup names ->
  set_fun k v (map (fun n => (n, g n)) names) =
  map (fun n => (n, if seqb k n then v else g n)) names ++ (if smem k names then [] else [(k, v)]).
Proof.
  intros k v g names H. induction H as [|n names Nn H IH]; [reflexivity|]. cbn [map set_fun].
  unfold smem. cbn [existsb]. fold (smem k names). destruct (seqb k n) eqn:E.
  - apply seqb_eq in E. subst n. cbn [orb app]. rewrite app_nil_r. f_equal.
    apply map_ext_in. intros m Hm. destruct (seqb k m) eqn:Em; [apply seqb_eq in Em; subst; contradiction|reflexivity].
  - cbn [orb app]. f_equal. exact IH.
Qed.

Definition opt_last (n : str) (ds : list (str * list (option node))) : list (option node) :=
  fold_left (fun old d => if seqb (fst d) n then snd d else old) ds [].
Lemma assign_table : forall ds, assign ds [] = map (fun n => (n, opt_last n ds)) (first_names [] (some_funs ds)).
Proof.
  induction ds as [|[k v] ds IH] using rev_ind; [reflexivity|].
  rewrite assign_app. cbn [assign fold_left fst snd]. rewrite IH.
  rewrite set_fun_map by apply first_names_nodup.
  rewrite some_funs_app. cbn [some_funs map fst snd]. fold (some_funs ds). rewrite first_names_snoc. cbn [smem existsb orb].
  assert (Em : smem k (first_names [] (some_funs ds)) = smem k (map fst (some_funs ds))).
  { apply eq_true_iff_eq. rewrite !smem_spec, first_names_in. cbn [smem existsb]. tauto. }
  rewrite Em, map_app. f_equal.
  - apply map_ext. intros n. unfold opt_last. rewrite fold_left_app. reflexivity.
  - destruct (smem k (map fst (some_funs ds))); [reflexivity|]. cbn [map]. unfold opt_last. rewrite fold_left_app. cbn [fold_left fst snd].
    now rewrite seqb_refl.
Qed.
Lemma opt_last_somes : forall n ds, somes (opt_last n ds) = last_def n (some_funs ds).
Proof.
  intros n ds. unfold opt_last, last_def.
  assert (G : forall a b, somes a = b ->
    somes (fold_left (fun old d => if seqb (fst d) n then snd d else old) ds a) =
    fold_left (fun old d => if seqb (fst d) n then snd d else old) (some_funs ds) b).
  { induction ds as [|[k v] ds IH]; intros a b H; [exact H|]. cbn [fold_left some_funs map fst snd]. apply IH.
    destruct (seqb k n); [reflexivity|exact H]. }
  now apply G.
Qed.

Section Parser.
Variable autoescape : bool.
Variable shlex_split : str -> result (list str).
Variable helper : nat -> str.

Lemma size_length : forall ts, size ts <= length ts.
Proof. intros ts. unfold size. induction ts as [|t ts IH]; [reflexivity|]. cbn. destruct (counts t); cbn; lia. Qed.

Lemma parse_is : forall ts, parse autoescape shlex_split helper ts =
  rmap (fun r => let '(ns, _, s) := r in
          TemplateNode 0 (p_mod s)
            (map (fun kv => NDef 0 false (fst kv) (somes (snd kv))) (set_fun (L "__main__()") ns (p_funs s))))
       (pb autoescape shlex_split helper [] (Pst ts [(L "__main__()", [])] [] false false 0)).
Proof.
  intros ts. unfold parse. f_equal. unfold pb. cbn [p_toks]. apply fuel_enough; cbn [p_toks]; pose proof (size_length ts); lia.
Qed.

Theorem parse_written : forall f ts, written shlex_split f ts -> else_apart f ->
  parse autoescape shlex_split helper ts = Ok (template_of autoescape helper f).
Proof.
  intros f ts W A. rewrite parse_is.
  destruct (all_parse autoescape shlex_split helper f ts W A false false 0) as (ons & ofs & H1 & H2 & P).
  specialize (P [] [] [(L "__main__()", [])] [] (allows_top f)). rewrite app_nil_r in P. rewrite P.
  rewrite pb_step. unfold step. cbn [p_toks pre rmap rbind p_mod p_funs app]. rewrite app_nil_r.
  unfold template_of. f_equal. f_equal.
  set (ds := (L "__main__()", []) :: ofs ++ [(L "__main__()", ons)]).
  assert (E : set_fun (L "__main__()") ons (assign ofs [(L "__main__()", [])]) = assign ds []).
  { unfold ds, assign. cbn [fold_left fst snd set_fun]. rewrite fold_left_app. reflexivity. }
  rewrite E, assign_table, map_map.
  assert (S : some_funs ds = (L "__main__()", []) :: defined autoescape helper false false 0 f
                ++ [(L "__main__()", nodes autoescape helper false false 0 f)]).
  { unfold ds. cbn [some_funs map fst snd somes flat_map]. fold (some_funs (ofs ++ [(L "__main__()", ons)])).
    rewrite some_funs_app, H2. cbn [some_funs map fst snd]. now rewrite H1. }
  rewrite <- S. apply map_ext. intros n. cbn [fst snd]. now rewrite opt_last_somes.
Qed.
End Parser.
