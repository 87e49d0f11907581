(** * Specification: markup in its plainest form (C77) *)

From Coq Require Import Ascii String List NArith ZArith Bool Permutation Sorted.
From Verif Require Import PyStr M_Values S_Values M_Dom S_Entities S_XDoc S_Markup S_Static.
Import ListNotations.
Open Scope list_scope.

Inductive markup : Type :=
| MElem (tag : str) (attrs : list (str * str)) (children : list markup)
| MText (t : str)
| MCdata (t : str).

(** How it is written: each element in the short form if it has no content, values between double quotes, references for the
    characters that have a meaning in markup. *)
Fixpoint text_of (m : markup) : str :=
  match m with
  | MElem tag a cs => element_text false tag (map (fun kv => (fst kv, Some (snd kv))) a) (is_nil cs) (flat_map text_of cs)
  | MText t => xml_text t
  | MCdata t => L "<![CDATA[" ++ t ++ L "]]>"
  end.

(** What an XML parser reports for it: any line numbers, texts in any number of pieces. *)
Definition chars (pieces : list (nat * str)) : list event := map (fun x => EChars (fst x) (snd x)) pieces.
Inductive parsed : list markup -> list event -> Prop :=
| pd_nil : parsed [] []
| pd_elem : forall ln ln' tag a cs inner l es, parsed cs inner -> parsed l es ->
    parsed (MElem tag a cs :: l) (EStart ln tag a :: inner ++ EEnd ln' tag :: es)
| pd_text : forall pieces l es, pieces <> [] -> parsed l es ->
    parsed (MText (concat (map snd pieces)) :: l) (chars pieces ++ es)
| pd_cdata : forall ln ln' pieces l es, parsed l es ->
    parsed (MCdata (concat (map snd pieces)) :: l) (EStartCDATA ln :: chars pieces ++ EEndCDATA ln' :: es).

(** No directives, no references to expressions, attributes in alphabetical order, no blanks other than spaces in
    values; the content of scripts and styles is left out.  A text contains all characters up to the next tag. *)
Definition not_text (l : list markup) : Prop := match l with MText _ :: _ => False | _ => True end.
Inductive canonical (autoblocks : list str) (scripts : bool) : list markup -> Prop :=
| cn_nil : canonical autoblocks scripts []
| cn_elem : forall tag a cs l, static_tag autoblocks tag -> NoDup (map fst a) -> StronglySorted by_name a ->
    Forall (fun kv => static_attr false kv (fst kv, Some (snd kv))) a -> (no_content scripts false tag -> cs = []) ->
    canonical autoblocks scripts cs -> canonical autoblocks scripts l -> canonical autoblocks scripts (MElem tag a cs :: l)
| cn_text : forall t l, t <> [] -> ~ In 13%N t -> plain_text t t -> not_text l -> canonical autoblocks scripts l ->
    canonical autoblocks scripts (MText t :: l)
| cn_cdata : forall t l, ~ In 13%N t -> plain_text t t -> ~ has (L "]]>") t -> ~ has (L "<!DOCTYPE") t ->
    canonical autoblocks scripts l -> canonical autoblocks scripts (MCdata t :: l).

(** Documents without comments and without dollar signs. *)
Definition tidy (e : event) : Prop :=
  match e with
  | EStart _ _ a => Forall (fun kv => ~ In c_dollar (snd kv)) a
  | EChars _ t => t <> [] /\ ~ In c_dollar t
  | ESkipped _ name => forall t, stands_for (name ++ [c_semi]) t -> t <> [] /\ ~ In c_dollar t
  | EEnd _ _ | EStartCDATA _ | EEndCDATA _ => True
  | _ => False
  end.
