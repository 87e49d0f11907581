(** * Proofs about generated Python: the generated lines are the layout of the program *)

From Coq Require Import Ascii String List NArith ZArith Bool Lia Arith.
From Verif Require Import PyStr PyStrLemmas M_IR S_IR P_IR.
Import ListNotations.
Open Scope list_scope.

(** ** Blocks that joining does not touch *)

Definition solid (c : list item) : Prop := forall l, ojoin (c ++ l) = c ++ ojoin l.
Definition starts (c : list item) : Prop := match c with i :: _ => is_text i = false | [] => False end.

Lemma solid_one : forall i, is_text i = false -> solid [i].
Proof. intros i H l. cbn [app]. now apply ojoin_nontext. Qed.

Lemma solid_app : forall a b, solid a -> solid b -> solid (a ++ b).
Proof. intros a b A B l. rewrite <- app_assoc, A, B. now rewrite app_assoc. Qed.

Lemma solid_cons : forall i c, is_text i = false -> solid c -> solid (i :: c).
Proof. intros i c H S. apply (solid_app [i] c); auto. now apply solid_one. Qed.

Lemma solid_joined : forall l i, is_text i = false -> solid (ojoin l ++ [i]).
Proof.
  intros l i H m. rewrite <- !app_assoc. cbn [app]. induction l as [|j l IH].
  - change (ojoin []) with (@nil item). cbn [app]. now rewrite ojoin_nontext.
  - destruct (is_text j) eqn:T.
    + destruct j as [| |ln t g|]; try discriminate. cbn [ojoin].
      destruct (ojoin l) as [|[| |ln' t' g'|] r] eqn:E; cbn [app] in *.
      * now rewrite ojoin_text_nontext.
      * cbn [ojoin]. cbn [ojoin] in IH. now rewrite IH.
      * cbn [ojoin]. cbn [ojoin] in IH. now rewrite IH.
      * destruct (oseqb g g') eqn:G.
        -- apply oseqb_eq in G. subst g'. cbn [app]. rewrite <- (ojoin_two ln t g ln' t').
           cbn [ojoin]. cbn [ojoin] in IH. rewrite IH. now rewrite oseqb_refl.
        -- cbn [app]. rewrite ojoin_diff by assumption. now rewrite IH.
      * cbn [ojoin]. cbn [ojoin] in IH. now rewrite IH.
    + rewrite ojoin_nontext by assumption. cbn [app]. rewrite ojoin_nontext by assumption. now rewrite IH.
Qed.


(** ** The same for blocks *)

Definition is_tx (b : blk) : bool := match b with Tx _ _ => true | _ => false end.
Definition bsolid (c : list blk) : Prop := forall l, join_texts (c ++ l) = c ++ join_texts l.
Definition bstarts (c : list blk) : Prop := match c with b :: _ => is_tx b = false | [] => False end.

Lemma jt_nontext : forall b l, is_tx b = false -> join_texts (b :: l) = b :: join_texts l.
Proof. intros [| | |] l H; try discriminate; reflexivity. Qed.

Lemma jt_text_nontext : forall t g b l, is_tx b = false ->
  join_texts (Tx t g :: b :: l) = Tx t g :: b :: join_texts l.
Proof. intros t g [| | |] l H; try discriminate; reflexivity. Qed.

Lemma jt_two : forall t g t' l, join_texts (Tx t g :: Tx t' g :: l) = join_texts (Tx (t ++ t') g :: l).
Proof.
  intros. cbn [join_texts]. destruct (join_texts l) as [|[t2 g2| | |] r] eqn:E; try (now rewrite oseqb_refl).
  destruct (oseqb g g2) eqn:G; rewrite oseqb_refl; [|reflexivity]. now rewrite app_assoc.
Qed.

Lemma jt_head_text : forall t g l, exists t' r, join_texts (Tx t g :: l) = Tx t' g :: r.
Proof.
  intros. cbn [join_texts]. destruct (join_texts l) as [|[t2 g2| | |] r]; eauto. destruct (oseqb g g2); eauto.
Qed.

Lemma jt_diff : forall t g t' g' l, oseqb g g' = false ->
  join_texts (Tx t g :: Tx t' g' :: l) = Tx t g :: join_texts (Tx t' g' :: l).
Proof.
  intros t g t' g' l H. destruct (jt_head_text t' g' l) as (u & r0 & E).
  change (join_texts (Tx t g :: Tx t' g' :: l)) with
    (match join_texts (Tx t' g' :: l) with
      | Tx t2 g2 :: r => if oseqb g g2 then Tx (t ++ t2) g :: r else Tx t g :: Tx t2 g2 :: r
      | r => Tx t g :: r end).
  rewrite E. now rewrite H.
Qed.

Lemma bsolid_one : forall b, is_tx b = false -> bsolid [b].
Proof. intros b H l. cbn [app]. now apply jt_nontext. Qed.

Lemma bsolid_app : forall a b, bsolid a -> bsolid b -> bsolid (a ++ b).
Proof. intros a b A B l. rewrite <- app_assoc, A, B. now rewrite app_assoc. Qed.

Lemma bsolid_cons : forall i c, is_tx i = false -> bsolid c -> bsolid (i :: c).
Proof. intros i c H S. apply (bsolid_app [i] c); auto. now apply bsolid_one. Qed.

Lemma bsolid_nil : bsolid [].
Proof. intros l. reflexivity. Qed.

Lemma bsolid_joined : forall l i, is_tx i = false -> bsolid (join_texts l ++ [i]).
Proof.
  intros l i H m. rewrite <- !app_assoc. cbn [app]. induction l as [|j l IH].
  - change (join_texts []) with (@nil blk). cbn [app]. now rewrite jt_nontext.
  - destruct (is_tx j) eqn:T.
    + destruct j as [t g| | |]; try discriminate. cbn [join_texts].
      destruct (join_texts l) as [|[t' g'| | |] r] eqn:E; cbn [app] in *.
      * now rewrite jt_text_nontext.
      * destruct (oseqb g g') eqn:G.
        -- apply oseqb_eq in G. subst g'. cbn [app]. rewrite <- (jt_two t g t').
           cbn [join_texts]. cbn [join_texts] in IH. rewrite IH. now rewrite oseqb_refl.
        -- cbn [app]. rewrite jt_diff by assumption. now rewrite IH.
      * cbn [join_texts]. cbn [join_texts] in IH. now rewrite IH.
      * cbn [join_texts]. cbn [join_texts] in IH. now rewrite IH.
      * cbn [join_texts]. cbn [join_texts] in IH. now rewrite IH.
    + rewrite jt_nontext by assumption. cbn [app]. rewrite jt_nontext by assumption. now rewrite IH.
Qed.


(** ** Layout *)

Section Layout.
Variable P : char -> bool.

Definition gen (k : nat) (l : list item) : list str := map (line_str P) (generate_from k l).
Definition layouts (k : nat) (l : list blk) : list str := flat_map (layout P k) l.

Lemma layout_block : forall k h body,
  layout P k (Bl h body) = (spaces k ++ show P h) :: layouts (4 + k) body.
Proof.
  reflexivity.
Qed.

Definition chunk (c : list item) (bs : list blk) : Prop :=
  solid c /\ starts c /\ bsolid bs /\ bstarts bs /\
  forall k rest, gen k (c ++ rest) = layouts k bs ++ gen k rest.

Inductive rel : list item -> list blk -> Prop :=
| rel_nil : rel [] []
| rel_text : forall ln t g l b, rel l b -> rel (IText ln t g :: l) (Tx t g :: b)
| rel_chunk : forall c bs l b, chunk c bs -> rel l b -> rel (c ++ l) (bs ++ b).

Lemma rel_gen : forall l b, rel l b -> forall k rest, gen k (l ++ rest) = layouts k b ++ gen k rest.
Proof.
  intros l b R. induction R as [|ln t g l b R IH|c bs l b C R IH]; intros k rest.
  - reflexivity.
  - cbn [app]. unfold gen. cbn [generate_from map]. fold (gen k (l ++ rest)). rewrite IH. reflexivity.
  - destruct C as (_ & _ & _ & _ & G). rewrite <- app_assoc, G, IH. unfold layouts.
    now rewrite flat_map_app, app_assoc.
Qed.

Lemma gen_lines : forall k ln ps rest,
  gen k (ILines ln ps :: rest) = map (fun p => spaces (fst p + k) ++ show P (snd p)) ps ++ gen k rest.
Proof.
  intros. unfold gen. cbn [generate_from]. rewrite map_app, map_map. reflexivity.
Qed.

Lemma gen_indent : forall k rest, gen k (IIndent :: rest) = gen (k + 4) rest.
Proof. reflexivity. Qed.
Lemma gen_dedent : forall k rest, gen (k + 4) (IDedent :: rest) = gen k rest.
Proof. intros. unfold gen. cbn [generate_from]. now replace (k + 4 - 4) with k by lia. Qed.

Definition good (n : node) : Prop :=
  match n with
  | NText ln t g => True
  | _ => chunk (iter n) (program n)
  end.

Lemma body_iter_eq : forall b,
  optimize ((fix go (l : list node) : list item := match l with [] => [] | m :: l' => iter m ++ go l' end) b) =
  ojoin (flat_map iter b).
Proof.
  intros b. rewrite optimize_ojoin. f_equal.
Qed.

Lemma body_prog_eq : forall b,
  join_texts ((fix go (l : list node) : list blk := match l with [] => [] | m :: l' => program m ++ go l' end) b) =
  join_texts (flat_map program b).
Proof. reflexivity. Qed.

(** Joined bodies correspond. *)
Lemma rel_cases : forall l b, rel l b ->
  (l = [] /\ b = []) \/
  (exists ln t g l' b', l = IText ln t g :: l' /\ b = Tx t g :: b' /\ rel l' b') \/
  (exists i l' c b', l = i :: l' /\ is_text i = false /\ b = c :: b' /\ is_tx c = false).
Proof.
  intros l b R. destruct R as [|ln t g l b R|c bs l b C R].
  - now left.
  - right; left. repeat eexists; auto.
  - right; right. destruct C as (_ & S & _ & T & _). destruct c as [|i c]; [contradiction|].
    destruct bs as [|x bs]; [contradiction|]. cbn [app]. repeat eexists; auto.
Qed.

Lemma rel_join_text : forall ln t g l b, rel (ojoin l) (join_texts b) ->
  rel (ojoin (IText ln t g :: l)) (join_texts (Tx t g :: b)).
Proof.
  intros ln t g l b R. cbn [ojoin join_texts].
  destruct (rel_cases _ _ R) as [[E1 E2]|[(ln' & t' & g' & l' & b' & E1 & E2 & R')|(i & l' & c & b' & E1 & H1 & E2 & H2)]].
  - rewrite E1, E2. repeat constructor.
  - rewrite E1, E2. destruct (oseqb g g') eqn:G.
    + constructor. assumption.
    + constructor. constructor. assumption.
  - rewrite E1, E2 in *. destruct i; try discriminate; destruct c; try discriminate; constructor; assumption.
Qed.

Lemma body_rel : forall b, Forall good b -> rel (ojoin (flat_map iter b)) (join_texts (flat_map program b)).
Proof.
  intros b F. induction F as [|n b G F IH]; [constructor|]. cbn [flat_map].
  assert (K : chunk (iter n) (program n) -> rel (ojoin (iter n ++ flat_map iter b))
                                                (join_texts (program n ++ flat_map program b))).
  { intros C. pose proof C as (S & _ & B & _). rewrite S, B. now constructor. }
  destruct n; try (exact (K G)). cbn [iter program app]. now apply rel_join_text.
Qed.

Lemma body_gen : forall b k rest, Forall good b ->
  gen k (ojoin (flat_map iter b) ++ rest) = layouts k (join_texts (flat_map program b)) ++ gen k rest.
Proof. intros. apply rel_gen. now apply body_rel. Qed.

Lemma chunk_lines : forall ln ps bs, bsolid bs -> bstarts bs ->
  (forall k, map (fun p => spaces (fst p + k) ++ show P (snd p)) ps = layouts k bs) ->
  chunk [ILines ln ps] bs.
Proof.
  intros ln ps bs S B E. split; [now apply solid_one|]. split; [reflexivity|]. split; [assumption|].
  split; [assumption|]. intros k rest. cbn [app]. rewrite gen_lines, E. reflexivity.
Qed.

Lemma chunk_stmt : forall ln p, chunk [ILines ln (at0 [p])] [St p].
Proof. intros. apply chunk_lines; [now apply bsolid_one | reflexivity | reflexivity]. Qed.

Lemma bsolid_block : forall h b, bsolid [Bl h b].
Proof. intros. now apply bsolid_one. Qed.

(** header, indented body, dedent *)
Lemma chunk_block : forall ln h items bs, solid (items ++ [IDedent]) ->
  (forall k rest, gen k (items ++ rest) = layouts k bs ++ gen k rest) ->
  chunk (ILines ln (at0 [h]) :: IIndent :: items ++ [IDedent]) [Bl h bs].
Proof.
  intros ln h items bs S G. split; [|split; [reflexivity|split; [apply bsolid_block|split; [reflexivity|]]]].
  - apply solid_cons; [reflexivity|]. apply solid_cons; [reflexivity|]. assumption.
  - intros k rest. cbn [app]. rewrite gen_lines, gen_indent, <- app_assoc, G. cbn [app]. rewrite gen_dedent.
    unfold layouts at 2. cbn [flat_map]. rewrite layout_block, app_nil_r, (Nat.add_comm 4 k). reflexivity.
Qed.

Lemma chunk_app : forall c1 b1 c2 b2, chunk c1 b1 -> chunk c2 b2 -> chunk (c1 ++ c2) (b1 ++ b2).
Proof.
  intros c1 b1 c2 b2 (S1 & T1 & U1 & V1 & G1) (S2 & T2 & U2 & V2 & G2).
  split; [now apply solid_app|]. split; [destruct c1; [contradiction | exact T1]|].
  split; [now apply bsolid_app|]. split; [destruct b1; [contradiction | exact V1]|].
  intros k rest. rewrite <- app_assoc, G1, G2. unfold layouts. now rewrite flat_map_app, app_assoc.
Qed.

Lemma map_stmts_layout : forall k ps, map (fun p => spaces (fst p + k) ++ show P (snd p)) (at0 ps) =
  layouts k (map St ps).
Proof.
  intros k ps. induction ps as [|p ps IH]; [reflexivity|]. cbn [at0 map layouts flat_map layout app fst snd Nat.add].
  unfold at0, layouts in IH. now rewrite IH.
Qed.

Lemma bsolid_stmts : forall ps, bsolid (map St ps).
Proof. induction ps as [|p ps IH]; [apply bsolid_nil|]. cbn [map]. now apply bsolid_cons. Qed.

(** lines, body on the same level, one more line *)
Lemma chunk_flat : forall ln p ps b q, Forall good b ->
  chunk (ILines ln (at0 (p :: ps)) :: ojoin (flat_map iter b) ++ [ILines 0 (at0 [q])])
        (map St (p :: ps) ++ join_texts (flat_map program b) ++ [St q]).
Proof.
  intros ln p ps b q F. split; [|split; [reflexivity|split; [|split; [reflexivity|]]]].
  - apply solid_cons; [reflexivity|]. now apply solid_joined.
  - apply bsolid_app; [apply bsolid_stmts | now apply bsolid_joined].
  - intros k rest. cbn [app]. rewrite gen_lines, map_stmts_layout, <- app_assoc. rewrite body_gen by assumption.
    cbn [app]. rewrite gen_lines, map_stmts_layout. unfold layouts. rewrite !flat_map_app.
    cbn [map flat_map]. rewrite <- !app_assoc. reflexivity.
Qed.

Lemma spaces_shift : forall k x, spaces (0 + k) ++ L "    yield " ++ x = spaces (4 + k) ++ L "yield " ++ x.
Proof.
  intros k x. unfold spaces. rewrite (Nat.add_comm 4 k), (repeat_app _ k 4). rewrite <- app_assoc. reflexivity.
Qed.

Lemma iter_nonempty : forall n, iter n <> [].
Proof.
  intros n. destruct n; cbn [iter]; try discriminate.
  - destruct (truthy_guard guard); discriminate.
  - destruct (truthy_guard guard); discriminate.
Qed.

Lemma ojoin_nonempty : forall l, l <> [] -> ojoin l <> [].
Proof.
  intros [|i l] H; [contradiction|]. destruct (is_text i) eqn:T.
  - destruct i; try discriminate. destruct (ojoin_head_text ln text guard l) as (t' & r & E). rewrite E. discriminate.
  - rewrite ojoin_nontext by assumption. discriminate.
Qed.

Lemma chunk_block_body : forall ln h b, Forall good b ->
  chunk (ILines ln (at0 [h]) :: IIndent :: ojoin (flat_map iter b) ++ [IDedent]) [Bl h (join_texts (flat_map program b))].
Proof.
  intros ln h b F. apply chunk_block; [now apply solid_joined|]. intros. now apply body_gen.
Qed.

Lemma chunk_stmt_block : forall ln p h items bs, solid (items ++ [IDedent]) ->
  (forall k rest, gen k (items ++ rest) = layouts k bs ++ gen k rest) ->
  chunk (ILines ln (at0 [p; h]) :: IIndent :: items ++ [IDedent]) [St p; Bl h bs].
Proof.
  intros ln p h items bs S G. pose proof (chunk_block ln h items bs S G) as (_ & _ & _ & _ & K).
  split; [|split; [reflexivity|split; [|split; [reflexivity|]]]].
  - apply solid_cons; [reflexivity|]. apply solid_cons; [reflexivity|]. assumption.
  - apply bsolid_cons; [reflexivity|]. apply bsolid_block.
  - intros k rest. specialize (K k rest). cbn [app] in *. rewrite gen_lines in *. cbn [at0 map app fst snd] in *.
    rewrite K. reflexivity.
Qed.

(** An attribute. *)
Lemma chunk_attr : forall ln a v m gn x, Forall good v ->
  chunk (ILines ln (at0 [PDefGen gn]) :: IIndent ::
        (match v with [] => [IText 0 [] None] | _ => ojoin (flat_map iter v) end) ++
        [IDedent; ILines 0 (at0 [PCollect gn; PForAttr x a gn m; PYieldVar x])])
        [Bl (PDefGen gn) (match v with [] => [Tx [] None] | _ => join_texts (flat_map program v) end);
         St (PCollect gn); Bl (PForAttr x a gn m) [St (PYield x)]].
Proof.
  intros ln a v m gn x F.
  set (items := match v with [] => [IText 0 [] None] | _ => ojoin (flat_map iter v) end).
  set (bs := match v with [] => [Tx [] None] | _ => join_texts (flat_map program v) end).
  assert (C : chunk (ILines ln (at0 [PDefGen gn]) :: IIndent :: items ++ [IDedent]) [Bl (PDefGen gn) bs]).
  { apply chunk_block.
    - unfold items. destruct v; [apply (solid_joined [IText 0 [] None]); reflexivity | now apply solid_joined].
    - intros k rest. unfold items, bs. destruct v; [reflexivity | now apply body_gen]. }
  assert (D : chunk [ILines 0 (at0 [PCollect gn; PForAttr x a gn m; PYieldVar x])]
                    [St (PCollect gn); Bl (PForAttr x a gn m) [St (PYield x)]]).
  { apply chunk_lines; [apply bsolid_cons; [reflexivity | apply bsolid_block] | reflexivity|].
    intros k. cbn [at0 map fst snd layouts flat_map layout app]. f_equal. f_equal. f_equal.
    exact (spaces_shift k x). }
  pose proof (chunk_app _ _ _ _ C D) as E. clearbody items bs. cbn [app] in E. rewrite <- app_assoc in E. exact E.
Qed.

Lemma all_good : forall n, good n.
Proof.
  induction n using node_ind'; cbn [good]; try exact I;
    cbn [iter program]; rewrite ?body_iter_eq, ?body_prog_eq; try apply chunk_stmt.
  - (* def *)
    assert (E : (match ojoin (flat_map iter b) with [] => [ILines 0 (at0 [PPass])] | b0 => b0 end) =
                match b with [] => [ILines 0 (at0 [PPass])] | _ => ojoin (flat_map iter b) end).
    { destruct b as [|m b]; [reflexivity|]. destruct (ojoin (flat_map iter (m :: b))) eqn:E; [|reflexivity].
      exfalso. revert E. apply ojoin_nonempty. cbn [flat_map]. intros X. apply app_eq_nil in X. destruct X as [X _].
      now apply iter_nonempty in X. }
    rewrite E. apply chunk_stmt_block.
    + destruct b; [|now apply solid_joined]. apply solid_app; now apply solid_one.
    + intros k rest. destruct b; [reflexivity | now apply body_gen].
  - (* call *)
    pose proof (chunk_stmt_block ln PDecorate (PDef d) (ojoin (flat_map iter b)) (join_texts (flat_map program b))
                 (solid_joined _ IDedent eq_refl) (fun k rest => body_gen b k rest H)) as C.
    pose proof (chunk_app _ _ _ _ C (chunk_stmt 0 (PYield c))) as D. cbn [app] in D. rewrite <- app_assoc in D. exact D.
  - now apply chunk_block_body.
  - (* with *)
    pose proof (chunk_flat ln (PPushWith (map fst v)) (map (fun kv => PAssign (fst kv) (snd kv)) v) b
                  (PPopWith (map fst v)) H) as C.
    cbn [map app] in C. rewrite map_map in C. exact C.
  - exact (chunk_flat ln (PPushSwitch d) [PIfFalse] b PPopSwitch H).
  - now apply chunk_block_body.
  - now apply chunk_block_body.
  - now apply chunk_block_body.
  - (* attribute *)
    destruct (truthy_guard g) as [c|].
    + pose proof (chunk_attr 0 a v m gen2 x H) as C. rewrite optimize_ojoin.
      set (items := ILines 0 (at0 [PDefGen gen2]) :: _) in *.
      assert (O : ojoin items = items).
      { destruct C as (S & _). specialize (S []). rewrite !app_nil_r in S. exact S. }
      unfold items in O |- *. rewrite O. fold items in O |- *.
      apply chunk_block.
      * apply solid_app; [apply C | now apply solid_one].
      * apply C.
    + now apply chunk_attr.
  - (* attributes *)
    destruct (truthy_guard g) as [c|].
    + apply chunk_lines; [apply bsolid_block | reflexivity|]. intros k.
      cbn [at0 map fst snd layouts flat_map layout app]. f_equal. f_equal. f_equal. exact (spaces_shift (4 + k) x).
    + apply chunk_lines; [apply bsolid_block | reflexivity|]. intros k.
      cbn [at0 map fst snd layouts flat_map layout app]. f_equal. f_equal. exact (spaces_shift k x).
  - (* python *)
    apply chunk_lines; [now apply bsolid_one | reflexivity|]. intros k. unfold at0. rewrite !map_map.
    cbn [fst snd show Nat.add layouts flat_map layout]. now rewrite app_nil_r.
Qed.

(** The lines generated for a template are the layout of its program. *)
Lemma generate_layout : forall t,
  map (line_str P) (generate_python t) = layouts 0 (template_program t).
Proof.
  intros t. unfold generate_python, template_iter, template_program.
  change (map (line_str P) (generate_from 0 ?l)) with (gen 0 l).
  assert (M : forall k ms rest, gen k (map (fun m => ILines (fst m) (at0 (map PCode (snd m)))) ms ++ rest) =
            layouts k (map (fun m => Py (snd m)) ms) ++ gen k rest).
  { intros k ms rest. induction ms as [|[ln ls] ms IH]; [reflexivity|]. cbn [map app fst snd].
    rewrite gen_lines, IH. unfold at0, layouts. rewrite !map_map. cbn [fst snd show Nat.add flat_map layout].
    now rewrite app_assoc. }
  rewrite M. unfold layouts at 2. rewrite flat_map_app. f_equal.
  unfold body_iter. rewrite optimize_ojoin.
  assert (F : Forall good (defs t)) by (apply Forall_forall; intros; apply all_good).
  pose proof (chunk_app _ _ _ _ (chunk_block_body (t_lineno t) PClass (defs t) F) (chunk_stmt 0 PTemplate)) as C.
  destruct C as (_ & _ & _ & _ & G). specialize (G 0 []). rewrite app_nil_r in G. cbn [app] in G.
  rewrite <- app_assoc in G. cbn [app] in G. rewrite G. unfold gen. cbn [generate_from map]. rewrite app_nil_r. reflexivity.
Qed.
End Layout.
