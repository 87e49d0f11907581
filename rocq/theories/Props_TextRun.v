(** * Whole text templates, and loaders with templates of both kinds: theorems C65 *)

From Coq Require Import Ascii String List NArith ZArith Bool Lia Arith.
From Verif Require Import PyStr PyStrLemmas M_Values S_Values M_IR S_IR M_Template M_Text S_Text S_TextTree P_Text9 M_XText M_Dom M_XCompile
  M_Run P_Run8 M_XRun S_XRun S_Run M_TextRun S_TextRun P_TextRun P_TextRun2 P_Refused Props_Run Props_XText Props_XRun Props_Text.
From Verif Require P_XRun1.
Import ListNotations.
Open Scope list_scope.

(** ** C65: a text template renders what it says *)

(** From the source to what is shown, for text templates with all tags, and for loaders that find XML templates
    as well: each may extend, include and import the others.  Sources that say nothing raise an error.
    Not covered: as in C29 and C61; blocks with names of several lines; tags and expressions with a [$] inside, or
    where Python stops at something else than the closing brace (C32). *)
Theorem C65_whole_partial : forall expat compile shlex_split exec_module gen py sources depth x context,
  generated_names py gen -> (forall l, object_names (exec_module l)) ->
  (forall fragment name x, sources fragment name = Ok x -> a_template expat compile shlex_split gen py x) ->
  a_template expat compile shlex_split gen py x -> object_names context ->
  exists load, finds expat compile shlex_split exec_module gen sources load /\
    let result := rbind (any_file expat compile shlex_split exec_module x) (fun f =>
      run_file py (fun fragment name => rbind (sources fragment name) (any_file expat compile shlex_split exec_module)) depth f context) in
    (exists c, any_tells expat compile shlex_split exec_module gen x c /\ result = template_means py load depth c (objects context)) \/
    ((forall r, ~ any_says expat compile shlex_split gen x r) /\ exists e, result = Raise e).
Proof. intros. now apply any_sources_mean. Qed.
Print Assumptions C65_whole_partial.

(** What a text says is unique, and so is the class that it describes, once the names of the bodies of calls
    are chosen. *)
Theorem C65_reading_unique : forall compile shlex_split g x r r',
  text_says compile shlex_split (eq g) x r -> text_says compile shlex_split (eq g) x r' -> r = r'.
Proof. exact text_reading_unique. Qed.
Print Assumptions C65_reading_unique.
Theorem C65_class_unique : forall expat compile shlex_split exec_module g x c c',
  any_tells expat compile shlex_split exec_module (eq g) x c -> any_tells expat compile shlex_split exec_module (eq g) x c' -> c = c'.
Proof. exact any_unique. Qed.
Print Assumptions C65_class_unique.

(** A layout with a block; a page that extends it, overrides the block, using the one of the layout, and includes
    an XML template.  The [else] of a [switch] needs an [end] of its own; the block is left open. *)
Definition tlayout : str := L "Dear $x," ++ [c_nl] ++ L "%block body" ++ [c_nl] ++ L "Base" ++ [c_nl] ++ L "%end" ++ [c_nl] ++ L "Bye".
Definition tpage : str :=
  L "%extends layout.txt" ++ [c_nl] ++
  L "%def twice(f)" ++ [c_nl] ++
  L "${f(x)}, ${f('b')}{%end%}" ++
  L "{%block body%}{%for c in x%}$c;{%end%}{%switch x%}{%case 'b'%}no{%else%}yes{%end%}{%end%} " ++
  L "{%call(n) twice(%caller)%}<$n>{%end%}" ++ [c_nl] ++
  L "${parent_block()}{%if x%}{%include list.html%}{%else%}none{%end%}".
Definition tsource (s : str) : any_source := TextFile (TextSource s false true (fun _ => L "_kj_1")).
Definition tsources (fragment : bool) (name : str) : result any_source :=
  if seqb name (L "layout.txt") then Ok (tsource tlayout)
  else if seqb name (L "list.html") then Ok (XmlFile (xsource xlayout)) else Raise "OSError".
(** The Python of C29's example, with spaces around. *)
Definition tdemo : python :=
  Python (fun s => demo_parse (strip s)) demo_block (fun s => demo_for (strip s)) (truth demo) (iterate demo) (unpack demo) (attrs_of demo)
    demo_params (veq demo) (gettext demo) (call_object demo) (call_method demo) (value_attr demo) (fun _ => None).
Definition tlayout_tree : tree :=
  G_text 1 (L "Dear ") (G_expr 1 (L "x") (G_text 2 (L "," ++ [c_nl]) (G_block (L "body") (G_text 4 (L "Base" ++ [c_nl]) G_nil) (G_text 5 (L "Bye") G_nil)))).
Definition tpage_tree : tree :=
  G_extends (L "layout.txt")
  (G_def (L " twice(f)") (G_expr 3 (L "f(x)") (G_text 3 (L ", ") (G_expr 3 (L "f('b')") G_nil)))
  (G_block (L "body")
     (G_in For (L " c in x") (G_expr 3 (L "c") (G_text 3 (L ";") G_nil))
     (G_in Switch (L " x") (G_in Case (L " 'b'") (G_text 3 (L "no") G_nil) (G_in Else [] (G_text 3 (L "yes") G_nil) G_nil))
     (G_text 3 (L " ")
     (G_call (L "n") (L " twice(%caller)") (G_text 3 (L "<") (G_expr 3 (L "n") (G_text 3 (L ">") G_nil)))
     (G_text 4 [c_nl]
     (G_expr 4 (L "parent_block()")
     (G_in If (L " x") (G_include (L "list.html") G_nil) (G_in Else [] (G_text 4 (L "none") G_nil) G_nil)))))))) G_nil)).
Definition tlayout_reading : reading :=
  Reading [RText (L "Dear ") None; RExpr (L "x") false; RText (L "," ++ [c_nl]) None; RExpr (L "_kj_block_body()") false; RText (L "Bye") None]
    [(L "_kj_block_body()", [RText (L "Base" ++ [c_nl]) None])] [].
Definition tpage_reading : reading :=
  Reading [RExtend (L "layout.txt")]
    [(L "twice(f)", [RExpr (L "f(x)") false; RText (L ", ") None; RExpr (L "f('b')") false]);
     (L "_kj_block_body()",
      [RPython [L "parent_block=parent._kj_block_body"];
       RFor (L " c in x") [RExpr (L "c") false; RText (L ";") None] [];
       RSwitch (L " x") [(L " 'b'", [RText (L "no") None])] [RText (L "yes") None];
       RText (L " ") None;
       RCall (L "_kj_1(n)") (L "twice(_kj_1)") [RText (L "<") None; RExpr (L "n") false; RText (L ">") None];
       RText [c_nl] None; RExpr (L "parent_block()") false;
       RIf (L " x") [RInclude (L "list.html")] [RText (L "none") None]])] [].

Lemma tlex : forall s ts, scan xex_compile s = ts -> forallb (fun t => match t with TRaise _ | TNone => false | _ => true end) ts = true ->
  lex xex_compile None 1 s ts.
Proof.
  intros s ts E F. apply C32_exact_partial.
  - intros _ s' l o _ H. unfold xex_compile in H. destruct (find (L "}") s') as [i|] eqn:Ef; [|discriminate].
    assert (l = 1 /\ o = i + 1) as [-> ->] by (split; congruence).
    destruct (find_Some _ _ _ Ef) as (a & b & -> & <-). exists a, b. split; [reflexivity|]. unfold expr_end. cbn. now rewrite !Nat.add_0_r.
  - split; [exact E|]. rewrite forallb_forall in F. apply Forall_forall. intros t Ht. apply F in Ht. now destruct t.
Qed.
Ltac tword := apply C33_unescape; vm_compute; reflexivity.
Ltac take := first
  [apply g_end|apply g_stop; cbn; tauto|apply g_text; [tword|take]|apply g_expr; take|eapply g_for; [take|take]|eapply g_switch; [take|take]
  |eapply g_else; [cbn; intuition discriminate|take|take]|eapply g_case; [cbn; intuition discriminate|take|take]|eapply g_def; [take|take]
  |eapply g_block; [take|take]|eapply g_if; [take|take]|eapply g_if_else; [take|take]
  |eapply (g_call _ _ _ [] (L "n") (L " twice(%caller)")); [intros []|cbn; intuition discriminate|take|take]
  |eapply g_extends; [vm_compute; reflexivity|take]|eapply g_include; [vm_compute; reflexivity|take]].
Ltac one_line := repeat (apply Forall_cons; [first [exact Logic.I|intros E; discriminate E|intros _; cbn; intuition (subst; reflexivity)]|]); apply Forall_nil.
Lemma tlayout_taken : exists ts, scan xex_compile tlayout = ts /\ Forall block_on_a_line ts /\ taken ex_split tlayout_tree ts.
Proof. eexists. split; [vm_compute; reflexivity|]. split; [one_line|]. unfold tlayout_tree, taken. take. Qed.
Lemma tpage_taken : exists ts, scan xex_compile tpage = ts /\ Forall block_on_a_line ts /\ taken ex_split tpage_tree ts.
Proof. eexists. split; [vm_compute; reflexivity|]. split; [one_line|]. unfold tpage_tree, taken. take. Qed.
Lemma tlayout_reads : text_says xex_compile ex_split (eq (L "_kj_1")) (TextSource tlayout false true (fun _ => L "_kj_1")) tlayout_reading.
Proof.
  assert (T : exists ps fs, text_tells true (eq (L "_kj_1")) false false tlayout_tree ps fs false /\
    assemble ps = Some (r_main tlayout_reading) /\ functions fs = r_functions tlayout_reading /\ modules fs = []).
  { eexists _, _. split; [unfold tlayout_tree; repeat (eapply tt_text || eapply tt_expr)|].
    - eapply tt_block; [repeat econstructor|vm_compute; reflexivity|xsolid|repeat econstructor].
    - split; [vm_compute; reflexivity|]. split; vm_compute; reflexivity. }
  destruct T as (ps & fs & T & A & F & M0), tlayout_taken as (ts & E & Bl & W).
  change tlayout_reading with (Reading (r_main tlayout_reading) (r_functions tlayout_reading) []). rewrite <- F, <- M0.
  eapply (text_reading _ _ _ _ ts _ ps _ fs); [now right|apply tlex; [exact E|subst ts; vm_compute; reflexivity]|exact Bl|exact W|exact T|exact A|xsolid].
Qed.
Lemma tpage_reads : text_says xex_compile ex_split (eq (L "_kj_1")) (TextSource tpage false true (fun _ => L "_kj_1")) tpage_reading.
Proof.
  assert (T : exists ps fs, text_tells true (eq (L "_kj_1")) false false tpage_tree ps fs true /\
    assemble ps = Some (r_main tpage_reading) /\ functions fs = r_functions tpage_reading /\ modules fs = []).
  { eexists _, _. split; [unfold tpage_tree; apply tt_extends; eapply tt_def|].
    - repeat econstructor.
    - vm_compute. reflexivity.
    - xsolid.
    - eapply tt_override.
      + eapply tt_for; [repeat econstructor|vm_compute; reflexivity|xsolid|]. eapply tt_switch.
        { eapply tt_case; [repeat econstructor|vm_compute; reflexivity|xsolid|]. eapply tt_else; [repeat econstructor|vm_compute; reflexivity|xsolid|constructor]. }
        { vm_compute. reflexivity. }
        apply tt_text. eapply tt_call; [reflexivity|repeat econstructor|vm_compute; reflexivity|xsolid|]. apply tt_text, tt_expr.
        eapply tt_if; [repeat econstructor|vm_compute; reflexivity|xsolid|]. eapply tt_else; [repeat econstructor|vm_compute; reflexivity|xsolid|constructor].
      + vm_compute. reflexivity.
      + apply tt_nil.
    - split; [vm_compute; reflexivity|]. split; vm_compute; reflexivity. }
  destruct T as (ps & fs & T & A & F & M0), tpage_taken as (ts & E & Bl & W).
  change tpage_reading with (Reading (r_main tpage_reading) (r_functions tpage_reading) []). rewrite <- F, <- M0.
  eapply (text_reading _ _ _ _ ts _ ps _ fs); [now right|apply tlex; [exact E|subst ts; vm_compute; reflexivity]|exact Bl|exact W|exact T|exact A|xsolid].
Qed.
Lemma tgenerated : generated_names tdemo (eq (L "_kj_1")).
Proof. intros x E. assert (x = L "_kj_1") as -> by now rewrite E. split; [vm_compute; reflexivity|]. intros [E'|[E'|[E'|[]]]]; discriminate. Qed.
Lemma tuser : user_reading tdemo (eq (L "_kj_1")) xlayout_reading /\ user_reading tdemo (eq (L "_kj_1")) tlayout_reading /\ user_reading tdemo (eq (L "_kj_1")) tpage_reading.
Proof.
  assert (NP : forall d, Forall (a_name (eq (L "_kj_1"))) (demo_names d) -> forall ks l, bind_params tdemo d ks = Ok l -> Forall (fun xa => a_name (eq (L "_kj_1")) (fst xa)) l).
  { intros d H ks l E. cbn [tdemo bind_params] in E. unfold demo_params in E. destruct (Nat.eqb _ _); [|discriminate].
    assert (l = combine (demo_names d) (map inl (seq 0 (length (demo_names d))))) as -> by congruence. rewrite Forall_forall in *.
    intros [y a] I1. apply H. now apply in_combine_l in I1. }
  assert (ND : forall x, seqb (L "_kj_1") x = false -> L "_kj_1" <> x) by (intros x E E'; rewrite <- E', seqb_refl in E; discriminate).
  split; [|split].
  all: cbv [user_reading xlayout_reading tlayout_reading tpage_reading r_main r_functions].
  all: repeat (match goal with |- _ \/ _ => fail 1 | |- L "_kj_1" = _ -> False => fail 1 | |- _ <> _ => fail 1 | |- _ => constructor end); cbn [user_rstm].
  all: match goal with
       | |- ~ (_ = _) \/ _ => first [right; vm_compute; reflexivity|left; apply ND; vm_compute; reflexivity]
       | |- ~ In _ reserved => intros [E|[E|[E|[]]]]; vm_compute in E; discriminate E
       | |- forall ks l, bind_params _ _ _ = Ok _ -> _ => apply NP; repeat constructor; first [apply ND; vm_compute; reflexivity|intros [E|[E|[E|[]]]]; vm_compute in E; discriminate E]
       | |- _ => apply ND; vm_compute; reflexivity
       end.
Qed.
Lemma tsources_read : Forall (a_template xexpat xex_compile ex_split (eq (L "_kj_1")) tdemo) [tsource tlayout; XmlFile (xsource xlayout); tsource tpage].
Proof.
  repeat apply Forall_cons; [| | |constructor].
  - split; [reflexivity|]. split; [left; exists tlayout_reading; exact tlayout_reads|]. intros r H. rewrite (C65_reading_unique _ _ _ _ _ _ H tlayout_reads). apply tuser.
  - destruct xsources_read as [(Hg & On & Ex & _) _]. repeat (split; [assumption|]). assert (Ed : exists d, xml_document xexpat (xsource xlayout) = Ok d /\
      document_tells xex_compile (eq (L "_kj_1")) (settings_of (xsource xlayout) d) d xlayout_reading) by (eexists; split; [vm_compute; reflexivity|exact xlayout_reads]).
    destruct Ed as (d & Ed & T). intros r [d' r' Ed' T']. assert (d' = d) as -> by congruence. rewrite (C61_reading_unique _ _ _ _ _ _ T' T). apply tuser.
  - split; [reflexivity|]. split; [left; exists tpage_reading; exact tpage_reads|]. intros r H. rewrite (C65_reading_unique _ _ _ _ _ _ H tpage_reads). apply tuser.
Qed.
Example C65_whole_example :
  generated_names tdemo (eq (L "_kj_1")) /\ (forall l, object_names (no_module l)) /\
  (forall fragment name x, tsources fragment name = Ok x -> a_template xexpat xex_compile ex_split (eq (L "_kj_1")) tdemo x) /\
  a_template xexpat xex_compile ex_split (eq (L "_kj_1")) tdemo (tsource tpage) /\ object_names [(L "x", VStr (L "a<"))] /\
  rbind (any_file xexpat xex_compile ex_split no_module (tsource tpage)) (fun f =>
    run_file tdemo (fun fragment name => rbind (tsources fragment name) (any_file xexpat xex_compile ex_split no_module)) 9 f [(L "x", VStr (L "a<"))]) =
  Ok (L "Dear a&lt;," ++ [c_nl] ++ L "a;&lt;;yes <a&lt;>, <b>" ++ [c_nl] ++ L "Base" ++ [c_nl] ++ L "<h><t>Base!</t>a&lt;</h>Bye").
Proof.
  pose proof tsources_read as R. rewrite !Forall_cons_iff in R. destruct R as (R1 & R2 & R3 & _).
  split; [exact tgenerated|]. split; [intros l; split; constructor|]. split; [|split; [exact R3|split; [|vm_compute; reflexivity]]].
  - intros fragment name x E. unfold tsources in E. destruct (seqb name (L "layout.txt")); [now assert (x = tsource tlayout) as -> by congruence|].
    destruct (seqb name (L "list.html")); [now assert (x = XmlFile (xsource xlayout)) as -> by congruence|discriminate].
  - split; repeat constructor; [intros []|]. intros [E|[E|[E|[]]]]; discriminate.
Qed.

(** *** Templates without a reading *)

(** If the tags are where they belong (a [case] inside a [switch], nothing else but an [else] directly inside), and no two functions
    have the same declaration, the only templates without a reading are those that Python refuses: an [else] without its [if],
    a directive or a function that says nothing. *)
Theorem C65_refused : forall compile shlex_split exec_module (gen : str -> Prop) py files depth x context,
  (forall i, gen (t_helper x i)) -> text_placed compile shlex_split x ->
  (exists r, text_says compile shlex_split gen x r) \/
  (exists e, text_file compile shlex_split exec_module x = Raise e) \/
  rbind (text_file compile shlex_split exec_module x) (fun f => run_file py files depth f context) = Raise "KajikiSyntaxError".
Proof.
  intros compile shlex_split exec_module gen py files depth x context Hg (ts & Hl & Hb & Hp).
  destruct (text_file compile shlex_split exec_module x) as [f0|e] eqn:Ef; [|right; left; now exists e].
  destruct (made_of compile shlex_split exec_module x ts f0 Hl Hb Ef) as (f & Ht & Hx). destruct (Hp f Ht) as [Hi Hn].
  destruct (text_complete compile shlex_split gen x ts f Hg Hx Hl Hb Ht Hi Hn) as (t & Et & Ft & R).
  destruct (functions_of (defs t)) as [fs|] eqn:E; [left; apply R; discriminate|right; right].
  unfold text_file in Ef. rewrite Et in Ef. cbn [rmap rbind] in *. assert (f0 = (t, [], exec_module (map snd (mod_py t)))) as -> by congruence. now apply C29_refused.
Qed.
Print Assumptions C65_refused.
(** An [else] after the end of its [if]. *)
Definition torphan : str := L "%if x" ++ [c_nl] ++ L "a" ++ [c_nl] ++ L "%end" ++ [c_nl] ++ L "b" ++ [c_nl] ++ L "%else" ++ [c_nl] ++ L "c" ++ [c_nl] ++ L "%end" ++ [c_nl].
Definition torphan_tree : tree :=
  G_in If (L " x") (G_text 3 (L "a" ++ [c_nl]) G_nil) (G_text 5 (L "b" ++ [c_nl]) (G_in Else [] (G_text 7 (L "c" ++ [c_nl]) G_nil) G_nil)).
Example C65_refused_example :
  text_placed xex_compile ex_split (TextSource torphan false true (fun _ => L "_kj_1")) /\
  forall py files depth context, rbind (text_file xex_compile ex_split no_module (TextSource torphan false true (fun _ => L "_kj_1")))
    (fun f => run_file py files depth f context) = Raise "KajikiSyntaxError".
Proof.
  split; [|intros; vm_compute; reflexivity]. eexists. split; [apply tlex; [vm_compute; reflexivity|vm_compute; reflexivity]|]. split; [one_line|].
  intros f Hf. assert (f = torphan_tree) as ->; [apply (C34_taken_unique _ _ _ _ Hf); unfold torphan_tree, taken; take|].
  split; [repeat split|]. repeat constructor; intros [].
Qed.
