(** * Property C71: errors are reported at the line where the code stands *)

From Coq Require Import Ascii String List NArith ZArith Bool Lia Arith Permutation Sorted.
From Verif Require Import PyStr M_Values S_Values M_IR M_Text M_XText S_XText M_Entities M_Dom M_XCompile M_Lnotab S_Lnotab S_XDoc S_XFun S_Lines
  P_Lnotab P_XText P_XFun2 P_Lines1 P_Lines4 Props_XText Props_XDoc Props_I18n.
Import ListNotations.
Open Scope nat_scope.
Open Scope list_scope.

(** C71.  For every document: where no code stands above what is read before it, the code outside of
    functions and blocks is reported, in order, at the lines where it stands.  What follows are the
    functions and blocks: they are reported at these lines or below, never above. *)
Theorem C71_main_partial : forall compile helper autoblocks cdata_scripts mode frag d t root m,
  compile_document compile helper autoblocks cdata_scripts mode frag d = Ok t ->
  filter no_comment (d_children d) = [root] ->
  stands compile autoblocks cdata_scripts false root m -> in_order m ->
  exists rest,
    reported_code (generate_python t) = map (fun x => (Z.of_nat (fst x), snd x)) (code_sites m) ++ rest /\
    Forall (fun x => Forall (fun y => (Z.of_nat (fst y) <= fst x)%Z) (code_sites m)) rest /\
    (forall l, declares autoblocks cdata_scripts false root l -> declared_names l = [] -> rest = []).
Proof. exact document_lines. Qed.
Print Assumptions C71_main_partial.

(** The interpreter reports these lines: an address that belongs to a generated line is reported at
    the template line in the table. *)
Theorem C71_traceback : forall (lines : list pyline) tab first,
  is_table tab -> (1 <= first <= Z.of_nat (length lines))%Z ->
  (forall address, 0 <= address -> interpreter_line first tab address <= Z.of_nat (length lines))%Z ->
  exists nfirst ntab,
    annotate (py_linenos (map (fun l => Z.of_nat (p_lineno l)) lines)) tab first = Ok (Some (nfirst, ntab)) /\
    forall address i, (0 <= address)%Z -> interpreter_line first tab address = Z.of_nat (S i) ->
      interpreter_line nfirst ntab address = nth i (reported lines) 0%Z.
Proof.
  intros lines tab first T F A. set (nums := map (fun l => Z.of_nat (p_lineno l)) lines).
  assert (Ln : length nums = length lines) by apply map_length. rewrite <- Ln in F.
  destruct (annotate_py_linenos nums tab first T F) as (nf & nt & E & _ & K); [now rewrite Ln|].
  exists nf, nt. split; [exact E|]. intros a i Ha Ei. rewrite K by exact Ha. rewrite Ei, Nat2Z.id.
  assert (Li : i < length nums) by (specialize (A a Ha); rewrite Ei in A; lia).
  unfold reported. fold nums.
  change 0%Z with (snd (0%Z, 0%Z)) at 2. rewrite map_nth. unfold py_linenos. rewrite py_linenos_nth by exact Li. reflexivity.
Qed.
Print Assumptions C71_traceback.

(** [<ul title="$t">] (line 1), [<py:def function="f(y)">] (2), [<b>$y</b></py:def>] (3),
    [<py:for each="x in xs">] (4), [<li>$x</li></py:for>] (5), [<py:block name="z"><i>$z</i></py:block></ul>] (6). *)
Definition ldef : dnode := DElem 2 (L "py:def") [(L "function", L "f(y)")] [DElem 3 (L "b") [] [DText 3 (L "$y") true]].
Definition lfor : dnode := DElem 4 (L "py:for") [(L "each", L "x in xs")] [DElem 5 (L "li") [] [DText 5 (L "$x") true]].
Definition lblock : dnode := DElem 6 (L "py:block") [(L "name", L "z")] [DElem 6 (L "i") [] [DText 6 (L "$z") true]].
Definition ldoc : dnode := DElem 1 (L "ul") [(L "title", L "$t")] [ldef; lfor; lblock].
Definition lsites : list site :=
  [(1, None); (1, Some (L "t")); (4, Some (L "x in xs")); (5, None); (5, Some (L "x")); (6, Some (L "_kj_block_z()"))].
Fixpoint ordered (m : nat) (l : list site) : bool :=
  match l with
  | [] => true
  | (n, Some _) :: l' => (1 <=? n) && (m <=? n) && ordered n l'
  | (n, None) :: l' => ordered (Nat.max m n) l'
  end.
Lemma ordered_in_order : forall l, ordered 0 l = true -> in_order l.
Proof.
  assert (G : forall l m, ordered m l = true -> forall before n e rest, l = before ++ (n, Some e) :: rest -> 1 <= n /\ m <= n /\ Forall (fun x => fst x <= n) before).
  { induction l as [|[n0 [e0|]] l IH]; intros m O before n e rest E; [destruct before; discriminate| |]; cbn [ordered] in O; destruct before as [|x before]; cbn [app] in E.
    - apply andb_true_iff in O as [O _]. apply andb_true_iff in O as [O1 O2]. apply Nat.leb_le in O1, O2. assert (n = n0) as -> by congruence. auto.
    - apply andb_true_iff in O as [O O3]. apply andb_true_iff in O as [O1 O2]. apply Nat.leb_le in O1, O2. assert (x = (n0, Some e0) /\ l = before ++ (n, Some e) :: rest) as [-> E'] by (split; congruence).
      destruct (IH _ O3 _ _ _ _ E') as (A & B & C). split; [exact A|]. split; [lia|]. constructor; [exact B|exact C].
    - discriminate.
    - assert (x = (n0, None) /\ l = before ++ (n, Some e) :: rest) as [-> E'] by (split; congruence).
      destruct (IH _ O _ _ _ _ E') as (A & B & C). split; [exact A|]. split; [lia|]. constructor; [cbn; lia|exact C]. }
  intros l O before n e rest E. destruct (G l 0 O _ _ _ _ E) as (A & _ & C). now split.
Qed.
Lemma lplain : forall ln tag cs l, prefixb (L "py:") tag = false -> ~ script_or_style tag -> declare_all [] true false cs l -> declares [] true false (DElem ln tag [] cs) l.
Proof. intros ln tag cs l P N D. apply de_inner; [|exact D]. apply ro_elem; [intros [[] _]|now apply ex_plain_tag|reflexivity|intros [_ S]; contradiction]. Qed.
Lemma ltext : forall b ln t, declare_all [] true b [DText ln t true] [].
Proof. intros. apply (da_cons [] true b _ _ [] []); constructor. Qed.
Lemma lvar : forall child ln tag t x, prefixb (L "py:") tag = false -> ~ script_or_style tag -> reads xex_compile ln t [XExpr ln x] ->
  stands xex_compile [] true child (DElem ln tag [] [DText ln t true]) [(ln, None); (ln, Some x)].
Proof.
  intros child ln tag t x P N R. apply (sd_elem _ _ _ child ln tag [] _ [] [] [] [(ln, Some x)]).
  - intros [[] _].
  - now apply ex_plain_tag.
  - constructor.
  - constructor.
  - constructor.
  - constructor.
  - now apply ms_none.
  - apply cs_nodes; [reflexivity|intros [_ S]; contradiction|].
    apply (sa_cons _ _ _ true child _ [] [] [(ln, Some x)] []); [intros _ []|now apply (sd_text xex_compile [] true child ln t true [XExpr ln x])|constructor|constructor].
Qed.
Example C71_example :
  stands xex_compile [] true false ldoc lsites /\ in_order lsites /\
  exists t, compile_document xex_compile mhelper [] true (L "xml") false (Document [] [ldoc]) = Ok t /\
    reported_code (generate_python t) =
      [(1, L "t"); (4, L "x in xs"); (5, L "x"); (6, L "_kj_block_z()"); (6, L "y"); (6, L "z")]%Z.
Proof.
  split; [|split].
  - unfold ldoc, lsites.
    apply (sd_elem _ _ _ false 1 (L "ul") [(L "title", L "$t")] _ [(L "title", L "$t")] [(1, Some (L "t"))] []
      [(4, Some (L "x in xs")); (5, None); (5, Some (L "x")); (6, Some (L "_kj_block_z()"))]).
    + intros [[] _].
    + now apply ex_plain_tag.
    + repeat constructor. intros [].
    + apply Permutation_refl.
    + repeat constructor.
    + apply (at_shown xex_compile [] 1 (L "ul") (L "title") (L "$t") [] [XExpr 1 (L "t")] []).
      * intros [[E|[E|E]]|[_ []]]; discriminate.
      * apply pieces_spec. reflexivity.
      * constructor.
    + apply ms_none. reflexivity.
    + apply cs_nodes; [reflexivity|intros [_ [E|E]]; discriminate|].
      apply (sa_cons _ _ _ true false _ [Declares (L "f(y)") ldef] _ [] [(4, Some (L "x in xs")); (5, None); (5, Some (L "x")); (6, Some (L "_kj_block_z()"))]).
      * intros _ [].
      * apply (sd_def _ _ _ _ _ _ _ _ (L "f(y)")). apply (ro_def [] true (L "py:def") [(L "function", L "f(y)")]); [intros [[] _]|now apply ex_directive].
      * apply (de_def [] true 2 (L "py:def") [(L "function", L "f(y)")] _ (L "f(y)") []).
        -- apply (ro_def [] true (L "py:def") [(L "function", L "f(y)")]); [intros [[] _]|now apply ex_directive].
        -- apply (da_cons [] true true _ _ [] []); [|constructor]. apply de_inner; [|apply ltext].
           apply ro_elem; [intros [[] _]|now apply ex_plain_tag|reflexivity|intros [_ [E|E]]; discriminate].
      * apply (sa_cons _ _ _ true false lfor [] _ [(4, Some (L "x in xs")); (5, None); (5, Some (L "x"))] [(6, Some (L "_kj_block_z()"))]).
        -- intros _ [].
        -- apply (sd_inner _ _ _ false 4 (L "py:for") _ _ (L "for") [Some (L "x in xs")] [(5, None); (5, Some (L "x"))]).
           ++ intros [[] _].
           ++ now apply ex_directive.
           ++ cbn; tauto.
           ++ apply (ar_for [(L "each", L "x in xs")]).
           ++ apply (sa_cons _ _ _ false false _ [] [] [(5, None); (5, Some (L "x"))] []); [intros _ []| | |constructor].
              ** apply lvar; [reflexivity|intros [E|E]; discriminate|apply pieces_spec; reflexivity].
              ** apply lplain; [reflexivity|intros [E|E]; discriminate|apply ltext].
        -- apply de_inner; [apply (ro_inner [] true _ _ (L "for")); [intros [[] _]|now apply ex_directive|cbn; tauto]|].
           apply (da_cons [] true false _ _ [] []); [|constructor]. apply lplain; [reflexivity|intros [E|E]; discriminate|apply ltext].
        -- apply (sa_cons _ _ _ true false lblock [Declares (L "_kj_block_z()") lblock] [] [(6, Some (L "_kj_block_z()"))] []); [intros _ []| | |constructor].
           ++ apply (sd_block _ [] true false 6 (L "py:block") [(L "name", L "z")] _ (L "z") []).
              ** apply (ro_block [] true (L "py:block") [(L "name", L "z")]); [intros [[] _]|now apply ex_directive].
              ** apply (da_cons [] true false _ _ [] []); [|constructor]. apply lplain; [reflexivity|intros [E|E]; discriminate|apply ltext].
           ++ apply (de_block [] true false 6 (L "py:block") [(L "name", L "z")] _ (L "z") []).
              ** apply (ro_block [] true (L "py:block") [(L "name", L "z")]); [intros [[] _]|now apply ex_directive].
              ** apply (da_cons [] true false _ _ [] []); [|constructor]. apply lplain; [reflexivity|intros [E|E]; discriminate|apply ltext].
  - apply ordered_in_order. reflexivity.
  - eexists. split; vm_compute; reflexivity.
Qed.

(** ** Where it is false

    Functions and blocks are generated after the main function and the table is a running maximum:
    [$y] of the example stands on line 3 and is reported at line 6, the last line of the template. *)
Theorem C71_function_refuted : exists d t, compile_document xex_compile mhelper [] true (L "xml") false d = Ok t /\
  d = Document [] [DElem 1 (L "ul") [(L "title", L "$t")] [ldef; lfor; lblock]] /\
  ldef = DElem 2 (L "py:def") [(L "function", L "f(y)")] [DElem 3 (L "b") [] [DText 3 (L "$y") true]] /\
  In (6%Z, L "y") (reported_code (generate_python t)) /\ ~ In (3%Z, L "y") (reported_code (generate_python t)).
Proof.
  exists (Document [] [ldoc]). eexists. split; [vm_compute; reflexivity|]. split; [reflexivity|]. split; [reflexivity|].
  split; vm_compute; [tauto|]. intuition discriminate.
Qed.
Print Assumptions C71_function_refuted.

(** A [py:call] on line 2 with a body up to line 3: the call is reported at line 3. *)
Theorem C71_call_refuted : exists d t i, compile_document xex_compile mhelper [] true (L "xml") false d = Ok t /\
  d = Document [] [DElem 1 (L "p") [] [DElem 2 (L "py:call") [(L "args", L "x"); (L "function", L "f(%caller)")]
        [DElem 2 (L "py:nop") [(L "args", L "x")] []; DElem 3 (L "b") [] [DText 3 (L "$x") true]]]] /\
  option_map p_stmt (nth_error (generate_python t) i) = Some (PYield (L "f(_kj_0)")) /\
  nth_error (reported (generate_python t)) i = Some 3%Z.
Proof. eexists. eexists. exists 9. split; [|split; [reflexivity|]]; [vm_compute; reflexivity|]. vm_compute. split; reflexivity. Qed.
Print Assumptions C71_call_refuted.

(** Embedded Python: the second line of [<?py a = 1], [b = c ?>] (lines 2 and 3) is reported at line 2. *)
Theorem C71_python_refuted : exists d t, compile_document xex_compile mhelper [] true (L "xml") false d = Ok t /\
  d = Document [] [DElem 1 (L "p") [] [DPi 2 (L "py") (L "a = 1" ++ [c_nl] ++ L "b = c")]] /\
  reported_code (generate_python t) = [(2, L "a = 1"); (2, L "b = c")]%Z.
Proof. eexists. eexists. split; [|split; [reflexivity|]]; vm_compute; reflexivity. Qed.
Print Assumptions C71_python_refuted.
