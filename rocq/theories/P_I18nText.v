(** * Proofs: text templates have no messages *)

From Coq Require Import Ascii String List Arith NArith ZArith Bool Lia.
From Verif Require Import PyStr PyStrLemmas M_Values M_IR M_I18n P_I18n M_Text.
Import ListNotations.
Open Scope list_scope.

Definition silent (l : list node) : Prop := flat_map node_messages l = [].
Definition silent_funs (l : list (str * list (option node))) : Prop := Forall (fun kv => silent (somes (snd kv))) l.
Lemma go_silent : forall l, (fix go (l : list node) : list (nat * str) := match l with [] => [] | m :: l' => node_messages m ++ go l' end) l = flat_map node_messages l.
Proof. induction l as [|m l IH]; [reflexivity|]. cbn [flat_map]. now rewrite <- IH. Qed.
Lemma silent_cons : forall o l, match o with Some n => node_messages n = [] | None => True end -> silent (somes l) -> silent (somes (o :: l)).
Proof. intros [n|] l H S; unfold silent, somes in *; cbn [flat_map app]; [now rewrite H, S|exact S]. Qed.
Lemma set_silent : forall k v l, silent (somes v) -> silent_funs l -> silent_funs (set_fun k v l).
Proof.
  intros k v l Hv H. induction H as [|[k' v'] l Hk H IH]; cbn [set_fun]; [constructor; [exact Hv|constructor]|].
  destruct (seqb k k'); constructor; auto.
Qed.
Lemma mk_python_silent : forall ln l n, mk_python ln l = Ok n -> node_messages n = [].
Proof.
  intros ln l n E. unfold mk_python in E. destruct (concat l) as [|c s]; [discriminate|].
  destruct (N.eqb c c_pct); [destruct (normalize s)|destruct (normalize (c :: s))]; try discriminate; cbn [rmap] in E; assert (X := f_equal (fun r => match r with Ok x => node_messages x | _ => [] end) E); now symmetry in X.
Qed.
Lemma python_of_silent : forall l n, python_of l = Ok n -> node_messages n = [].
Proof. intros l n E. unfold python_of in E. destruct (texts_of l); [|discriminate]. exact (mk_python_silent _ _ _ E). Qed.

Section Parse.
Variable autoescape : bool.
Variable shlex_split : str -> result (list str).
Variable helper : nat -> str.
Notation parse_body := (parse_body autoescape shlex_split helper).
Definition good_step (r : result (option node * pst)) : Prop :=
  forall o s, r = Ok (o, s) -> match o with Some n => node_messages n = [] | None => True end /\ silent_funs (p_funs s).
Definition good_body (r : result (list (option node) * stop * pst)) : Prop :=
  forall ns e s, r = Ok (ns, e, s) -> silent (somes ns) /\ silent_funs (p_funs s).
Lemma good_bind : forall r k, good_body r ->
  (forall ns e s, silent (somes ns) -> silent_funs (p_funs s) -> good_step (k ns e s)) -> good_step (rbind r (fun r => let '(ns, e, s') := r in k ns e s')).
Proof. intros [[[ns e] s]|x] k H K; cbn [rbind]; [|intros o s' E; discriminate]. destruct (H _ _ _ eq_refl). now apply K. Qed.
Lemma good_ret : forall o s, match o with Some n => node_messages n = [] | None => True end -> silent_funs (p_funs s) -> good_step (Ok (o, s)).
Proof. intros o s H F o' s' E. assert (o' = o /\ s' = s) as [-> ->] by (split; congruence). now split. Qed.
Lemma good_raise : forall x, good_step (Raise x).
Proof. intros x o s E. discriminate. Qed.
Lemma good_rbind : forall A (r : result A) k, (forall x, r = Ok x -> good_step (k x)) -> good_step (rbind r k).
Proof. intros A [x|e] k H; cbn [rbind]; [now apply H|apply good_raise]. Qed.

Lemma parse_body_silent : forall f tags s, silent_funs (p_funs s) -> good_body (parse_body f tags s).
Proof.
  induction f as [|f IH]; intros tags s F; cbn [M_Text.parse_body]; [intros ns e s' E; discriminate|].
  assert (Cont : forall n s, match n with Some n => node_messages n = [] | None => True end -> silent_funs (p_funs s) ->
    good_body (rmap (fun r => let '(ns, e, s') := r in (n :: ns, e, s')) (parse_body f tags s))).
  { intros n s1 Hn F1. specialize (IH tags s1 F1). destruct (parse_body f tags s1) as [[[ns e] s2]|]; cbn [rmap]; [|intros a b c E; discriminate].
    destruct (IH _ _ _ eq_refl) as [A B]. intros ns' e' s' E. assert (ns' = n :: ns /\ s' = s2) as [-> ->] by (split; congruence). split; [now apply silent_cons|exact B]. }
  destruct (p_toks s) as [|[ln t|ln t|ln tag tbody| |e] ts]; try (intros ns e' s' E; discriminate).
  - intros ns e s' E. assert (ns = [] /\ s' = s) as [-> ->] by (split; congruence). now split.
  - destruct (unescape_newlines t); cbn [rbind]; [|intros a b c E; discriminate]. now apply Cont.
  - now apply Cont.
  - destruct (smem tag tags).
    { intros ns e s' E. assert (ns = [] /\ s' = with_toks s ts) as [-> ->] by (split; congruence). now split. }
    match goal with |- good_body (rbind ?m _) => assert (G : good_step m) end.
    { repeat match goal with |- good_step (if ?b then _ else _) => destruct b end.
      all: try (apply good_bind; [now apply IH|]; intros ns e s' Sn Fs).
      all: try (apply good_ret; [try exact Logic.I; cbn [node_messages]; rewrite ?go_silent; exact Sn|exact Fs]).
      - unfold with_toks. cbv zeta. cbn [p_in_def]. destruct (p_in_def s); apply good_ret; cbn [node_messages p_funs]; [rewrite go_silent; exact Sn|exact Fs|exact Logic.I|now apply set_silent].
      - destruct (find_from (L "(") tbody 0); [|apply good_raise]. destruct (find_from (L ")") tbody n); [|apply good_raise].
        apply good_bind; [now apply IH|]; intros ns e s' Sn Fs. apply good_ret; [|exact Fs]. unfold mk_call. cbn [node_messages]. rewrite go_silent. exact Sn.
      - destruct e as [[| |? tg ?| |]|]; try apply good_raise. apply good_ret; [cbn [node_messages]; rewrite go_silent; exact Sn|]. now destruct (seqb tg (L "else")).
      - apply good_rbind. intros [|fn [|]] _; try apply good_raise. now apply good_ret.
      - apply good_rbind. intros [|fn [|as_ more]] _; try apply good_raise; [now apply good_ret|]. destruct (seqb as_ (L "as")); [|apply good_raise]. destruct more; [apply good_raise|now apply good_ret].
      - apply good_rbind. intros [|fn [|]] _; try apply good_raise. now apply good_ret.
      - assert (Fin : forall ns s', silent_funs (p_funs s') -> good_step (rbind (python_of ns) (fun n =>
                match n with
                | NPython ln ls true =>
                    Ok (None, Pst (p_toks s') (p_funs s') (p_mod s' ++ [(ln, ls)]) (p_in_def s') (p_child s') (p_calls s'))
                | _ => Ok (Some n, s')
                end))).
        { intros ns s' Fs. apply good_rbind. intros n En. apply python_of_silent in En. destruct n; try now apply good_ret. destruct module_level; now apply good_ret. }
        destruct (strip tbody) as [|c code]; [|now apply Fin]. apply good_bind; [now apply IH|]; intros ns e s' Sn Fs. now apply Fin.
      - destruct (p_child s').
        + destruct (mk_python 0 _) as [n|] eqn:En; cbn [rmap]; [|apply good_raise]. apply mk_python_silent in En. apply good_ret; [exact Logic.I|]. apply set_silent; [|exact Fs].
          now apply silent_cons.
        + apply good_ret; [reflexivity|]. now apply set_silent.
      - now apply good_ret.
      - apply good_raise. }
    match goal with |- good_body (rbind ?m _) => destruct m as [[o s1]|] end; cbn [rbind fst snd]; [|intros a b c E; discriminate].
    destruct (G _ _ eq_refl). now apply Cont.
Qed.
Lemma parse_silent : forall ts t, parse autoescape shlex_split helper ts = Ok t -> messages t = [].
Proof.
  intros ts t E. unfold parse in E. match type of E with rmap _ ?m = _ => destruct m as [[[ns e] s]|] eqn:Em end; [|discriminate]. cbn [rmap] in E.
  apply parse_body_silent in Em; [|constructor; [reflexivity|constructor]]. destruct Em as [A B]. apply (set_silent (L "__main__()") ns) in B; [|exact A].
  match type of E with Ok ?x = _ => assert (t = x) as -> by congruence end. unfold messages. cbn [defs]. clear E.
  induction B as [|kv l Hk B IH]; [reflexivity|]. cbn [map flat_map node_messages]. rewrite go_silent, Hk. exact IH.
Qed.
End Parse.
