(** * Proofs: what the pieces of a text render *)

From Coq Require Import Ascii String List Arith NArith ZArith Bool Lia.
From Verif Require Import PyStr PyStrLemmas M_Values M_IR S_IR M_Exec P_Exec M_Text S_Text M_Dom S_Dom P_Dom M_XText S_XText.
Import ListNotations.
Open Scope list_scope.

Lemma strip_blank_spec : forall t, (match strip t with [] => true | _ => false end) = forallb is_space t.
Proof.
  intros t. destruct (blank_or_parts t) as [H|(a & b & c & H)].
  - rewrite strip_blank by assumption. symmetry. apply forallb_forall. now apply Forall_forall.
  - rewrite (strip_parts t a b c H). pose proof (parts_not_blank _ _ _ _ H) as Nb. destruct H as (_ & _ & _ & Ne & _).
    destruct b; [congruence|]. destruct (forallb is_space t) eqn:E; [|reflexivity]. destruct Nb.
    apply Forall_forall. now apply forallb_forall.
Qed.

Lemma piece_exec : forall py k p c s, exists b, program (piece_node k p) = [b] /\
  exec py b c s = rmap (fun v => ([v], CNone, s)) (shown py (s_env s) k p).
Proof.
  intros py k p c s. destruct p as [ln t|ln x].
  - destruct k.
    + cbn [piece_node shown]. unfold make_text_node. pose proof (strip_blank_spec t) as E.
      destruct (strip t) eqn:S.
      * eexists. split; [reflexivity|]. rewrite <- E. reflexivity.
      * eexists. split; [reflexivity|]. unfold trans_stmt. rewrite S, <- E. reflexivity.
    + eexists. split; reflexivity.
    + eexists. split; reflexivity.
  - destruct k; (eexists; split; [reflexivity|]); cbn [exec exec_stmt shown].
    + destruct (ev py (s_env s) x); reflexivity.
    + destruct (ev py (s_env s) x); reflexivity.
    + reflexivity.
Qed.

Lemma pieces_exec : forall py k ps s, execs py (flat_map program (map (piece_node k) ps)) CNone s =
  rmap (fun vs => (vs, CNone, s)) (rseq (map (shown py (s_env s) k) ps)).
Proof.
  intros py k ps s. induction ps as [|p ps IH]; [reflexivity|]. cbn [map flat_map].
  destruct (piece_exec py k p CNone s) as (b & -> & E). cbn [app execs]. rewrite E. cbn [rseq].
  destruct (shown py (s_env s) k p) as [v|x]; [|reflexivity]. cbn [rmap rbind fst snd]. rewrite IH.
  destruct (rseq (map (shown py (s_env s) k) ps)); reflexivity.
Qed.

Lemma pieces_render : forall py k ps e w sw,
  rmap (fun r => (render (fst (fst r)), snd (fst r), snd r)) (exec_body py (programs (map (piece_node k) ps)) e w sw) =
  rmap (fun vs => (render vs, w, sw)) (rseq (map (shown py e k) ps)).
Proof.
  intros py k ps e w sw. unfold exec_body, programs.
  pose proof (execs_join py (flat_map program (map (piece_node k) ps)) CNone (St_ e w sw [])) as J.
  rewrite pieces_exec in J. cbn [s_env] in J.
  destruct (execs py (join_texts _) CNone _) as [[[o c] s']|x], (rseq _) as [vs|y]; cbn [rmap fst snd] in J |- *; unfold same3, same_res, out3 in J; cbn [rmap fst snd] in J; try tauto.
  - destruct J as [J1 J2]. injection J2; intros; subst. cbn [s_with s_switch]. now rewrite (same_out_render _ _ J1).
  - now subst.
Qed.
