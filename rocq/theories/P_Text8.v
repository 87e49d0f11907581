(** * Text templates: tokens can be taken in one way only *)

From Coq Require Import Ascii String List Arith NArith ZArith Bool Lia.
From Verif Require Import PyStr PyStrLemmas M_NameGen M_Values M_IR M_Exec M_Text S_Text P_Text5.
Import ListNotations.
Open Scope list_scope.

Definition closes (r : list tok) : Prop :=
  match r with
  | [] => True
  | TTag _ n _ :: _ => n = L "end" \/ n = L "else" \/ n = L "case"
  | _ => False
  end.
Definition ends (r : list tok) : Prop :=
  match r with
  | [] => True
  | TTag _ n _ :: _ => n = L "end"
  | _ => False
  end.
Lemma unescaped_unique : forall s t t', unescaped s t -> unescaped s t' -> t = t'.
Proof. intros s t t' H H'. apply unescape_spec in H, H'. congruence. Qed.
Lemma unescaped_all : forall raws texts texts',
  Forall2 (fun raw t => unescaped (snd raw) t) raws texts -> Forall2 (fun (raw : nat * str) t => unescaped (snd raw) t) raws texts' -> texts = texts'.
Proof.
  intros raws texts texts' H. revert texts'. induction H as [|x y raws texts U H IH]; intros texts' H'; inversion H'; subst; [reflexivity|].
  f_equal; [eapply unescaped_unique; eassumption|now apply IH].
Qed.
Lemma before_unique : forall (c : char) u u' v v', ~ In c u -> ~ In c u' -> u ++ c :: v = u' ++ c :: v' -> u = u' /\ v = v'.
Proof.
  intros c u. induction u as [|a u IH]; intros [|a' u'] v v' N N' E; cbn [app] in E.
  - assert (v' = v) by congruence. now split.
  - exfalso. apply N'. left. congruence.
  - exfalso. apply N. left. congruence.
  - assert (a' = a) as -> by congruence. destruct (IH u' v v') as [-> ->]; [intros X; apply N; now right|intros X; apply N'; now right|congruence|].
    now split.
Qed.
Lemma raws_unique : forall (raws raws' : list (nat * str)) l x ts l' x' ts',
  map (fun r => TText (fst r) (snd r)) raws ++ TTag l (L "end") x :: ts =
  map (fun r => TText (fst r) (snd r)) raws' ++ TTag l' (L "end") x' :: ts' -> raws = raws' /\ l = l' /\ x = x' /\ ts = ts'.
Proof.
  induction raws as [|[n r] raws IH]; intros [|[n' r'] raws'] l x ts l' x' ts' E; cbn [map app fst snd] in E.
  - repeat split; congruence.
  - discriminate.
  - discriminate.
  - injection E as -> -> E. destruct (IH _ _ _ _ _ _ _ E) as (-> & -> & -> & ->). now repeat split.
Qed.

Section Unique.
Variable shlex_split : str -> result (list str).
Let W := written shlex_split.
Let WC := written_cases shlex_split.
Definition one_way (f : forest) (ts : list tok) : Prop :=
  forall f' ts' r r', W f' ts' -> closes r -> closes r' -> ts ++ r = ts' ++ r' -> f = f' /\ ts = ts' /\ r = r'.
Definition one_way_cases (c : cases) (ts : list tok) : Prop :=
  forall c' ts' r r', WC c' ts' -> ends r -> ends r' -> ts ++ r = ts' ++ r' -> c = c' /\ ts = ts' /\ r = r'.
Lemma cases_closes : forall c ts r, WC c ts -> ends r -> closes (ts ++ r).
Proof. intros c ts r H E. destruct H; cbn [app closes]; try tauto. destruct r as [|[]]; cbn [ends closes] in *; tauto. Qed.
Lemma ends_closes : forall l x ts, closes (TTag l (L "end") x :: ts).
Proof. intros. now left. Qed.
Lemma else_closes : forall l x ts, closes (TTag l (L "else") x :: ts).
Proof. intros. right. now left. Qed.
Ltac other E := exfalso; clear -E; cbn [app] in E; first [discriminate E|injection E; intros; discriminate].
Ltac closing r H E := exfalso; destruct r as [|[] ]; cbn [app closes] in H, E; try contradiction; try discriminate E; injection E; intros; subst; destruct H as [H|[H|H]]; discriminate H.
Ltac start E := rewrite <- ?app_assoc in E; cbn [app] in E; rewrite <- ?app_assoc in E; cbn [app] in E; rewrite <- ?app_assoc in E; cbn [app] in E.
Lemma written_opens : forall f ts r, W f ts -> closes (ts ++ r) -> f = F_nil /\ ts = [].
Proof.
  intros f ts r H C. destruct H; [now split|exfalso..]; cbn [app closes] in C; try contradiction.
  all: destruct C as [C|[C|C]]; discriminate C.
Qed.
Lemma closing_end : forall r, ends r -> closes r.
Proof. intros [|[] ]; cbn [ends closes]; tauto. Qed.
Ltac close_it := first [assumption|apply closing_end; assumption|apply ends_closes|apply else_closes|eapply cases_closes; [eassumption|first [assumption|reflexivity]]|cbn [closes ends]; tauto].
Ltac heads := repeat match goal with E : TText _ _ :: _ = TText _ _ :: _ |- _ => injection E; clear E; intros; subst
  | E : TExpr _ _ :: _ = TExpr _ _ :: _ |- _ => injection E; clear E; intros; subst
  | E : TTag _ _ _ :: _ = TTag _ _ _ :: _ |- _ => injection E; clear E; intros; subst end.
Ltac block := match goal with
  | E : ?a ++ ?R = ?b ++ ?R', IH : (forall f' ts' r r', W f' ts' -> closes r -> closes r' -> ?a ++ r = ts' ++ r' -> _), Hw : written _ ?f ?b |- _ =>
      destruct (IH f b R R' Hw) as (? & ? & ?); [close_it|close_it|exact E|clear E IH Hw; subst]
  | E : ?a ++ ?R = ?b ++ ?R', IH : (forall c' ts' r r', WC c' ts' -> ends r -> ends r' -> ?a ++ r = ts' ++ r' -> _), Hw : written_cases _ ?f ?b |- _ =>
      destruct (IH f b R R' Hw) as (? & ? & ?); [close_it|close_it|exact E|clear E IH Hw; subst]
  end.
Lemma written_one_way : forall f ts, W f ts -> one_way f ts.
Proof.
  intros f ts Wf. induction Wf using written_mut with (P0 := fun c ts _ => one_way_cases c ts); unfold one_way, one_way_cases in *;
    intros f' ts' r r' H' Hr Hr' E.
  1: { cbn [app] in E. rewrite E in Hr. destruct (written_opens _ _ _ H' Hr) as [-> ->]. now repeat split. }
  all: destruct H'; start E.
  all: try (other E).
  all: try (exfalso; subst r'; cbn [closes] in Hr'; try contradiction; destruct Hr' as [Hr'|[Hr'|Hr']]; discriminate Hr').
  all: heads.
  all: try congruence.
  all: repeat (block; heads).
  all: try (repeat split; congruence).
  - rewrite (unescaped_unique _ _ _ u H). now repeat split.
  - match goal with X : u ++ _ = u0 ++ _ |- _ => rename X into Eb end.
    destruct (before_unique c_lpar u u0 _ _ n H Eb) as [-> Eb2].
    destruct (before_unique c_rpar args args0 _ _ n0 H0 Eb2) as [-> ->]. now repeat split.
  - match goal with X : map _ _ ++ _ = _ |- _ => destruct (raws_unique _ _ _ _ _ _ _ _ X) as (-> & -> & -> & X'); clear X end.
    block. assert (texts0 = texts) as -> by (eapply unescaped_all; eassumption). assert (ls0 = ls) as -> by congruence. now repeat split.
  - exfalso. match goal with X : map _ _ ++ _ = _ |- _ => destruct (raws_unique _ _ _ _ _ _ _ _ X) as (-> & -> & -> & X'); clear X end.
    assert (texts0 = texts) as -> by (eapply unescaped_all; eassumption). congruence.
  - exfalso. match goal with X : map _ _ ++ _ = _ |- _ => destruct (raws_unique _ _ _ _ _ _ _ _ X) as (-> & -> & -> & X'); clear X end.
    assert (texts0 = texts) as -> by (eapply unescaped_all; eassumption). congruence.
  - match goal with X : map _ _ ++ _ = _ |- _ => destruct (raws_unique _ _ _ _ _ _ _ _ X) as (-> & -> & -> & X'); clear X end.
    block. assert (texts0 = texts) as -> by (eapply unescaped_all; eassumption). assert (ls0 = ls) as -> by congruence. now repeat split.
  - exfalso. subst r. discriminate Hr.
  - exfalso. subst r. discriminate Hr.
  - exfalso. subst r'. discriminate Hr'.
  - exfalso. subst r'. discriminate Hr'.
Qed.
Theorem written_unique : forall f f' ts, W f ts -> W f' ts -> f = f'.
Proof. intros f f' ts H H'. now destruct (written_one_way f ts H f' ts [] [] H' Logic.I Logic.I eq_refl). Qed.
End Unique.
