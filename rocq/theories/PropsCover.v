(** The elements a selection is drawn over (C57). *)
From Coq Require Import String.
From Verif Require Import Base Str Grid Node Focus Edit Caret Autocomplete Editor Rules Spec NameMap Syntax Pratt Grammar SyntaxFind Render Layout
  SpecSyntax SpecPratt SpecRender SpecCover BaseFacts TreeFacts ParseFacts ParseTotal GrammarFacts FindFacts ShapeFacts RenderFacts LayoutFacts CoverFacts
  Samples PropsAuto PropsEditor PropsRender.
Open Scope list_scope.
Open Scope nat_scope.

(** The elements that give a selection its height, and so are highlighted, lie in the drawing of the
    row, from left to right without overlap. Each has a part of the selection, and one that is not
    wholly selected is a leaf, which cannot be divided. Together they draw every selected node. *)
Theorem C57_covers : forall xs xc doc x p row a b, wf_row doc -> draw xs xc doc = Ok x -> row_get doc p = Some row -> a <= List.length row -> b <= List.length row -> a <> b ->
  exists x' pa pb l ys, get_element x p = Ok x' /\ get_viewport_selection x p a b = Ok (pa, pb, l) /\ Forall2 (fun path y => element_at x' path = Some y) l ys /\
    ForallOrdPairs (fun y y' => snd (element_range y) <= fst (element_range y')) ys /\
    (forall y, In y ys -> fst (element_range y) < Nat.max a b /\ Nat.min a b < snd (element_range y)) /\
    (forall y, In y ys -> get_children y <> [] -> Nat.min a b <= fst (element_range y) /\ snd (element_range y) <= Nat.max a b) /\
    (forall k, Nat.min a b <= k < Nat.max a b -> exists y, In y ys /\ draws y k).
Proof.
  intros xs xc doc x p row a b Hwf H Hrow Ha Hb Hab.
  destruct (C57_selection xs xc doc x p row a b Hwf H Hrow Ha Hb) as (pa&pb&l&E&_). apply draw_inv in H as (n&En&Hx).
  destruct (find_parsed (@default_no_empty_tokens xs xc) (@default_all_containers xs xc) Hwf En Hrow) as (n'&En'&Ep).
  destruct (get_element_mirror (render_all_mirror Hx) En') as (x'&o'&ri'&Ex&M). pose proof (row_get_wf Hwf Hrow) as Hwr.
  destruct (parse_gtree (@default_no_empty_tokens xs xc) (@default_all_containers xs xc) Hwr) as (n2&En2&T). rewrite Ep in En2. inv En2.
  destruct (proj1 (@selection_covers default_renderers (Nat.min a b) (Nat.max a b) (P (default_grammar xs xc))) _ _ _ _ M _ _ _ T []) as (ys&F&[C I O]).
  exists x', pa, pb, l, ys. split; [exact Ex|]. split; [exact E|]. 
  assert (l = selection_elements (Nat.min a b) (Nat.max a b) x' []) as ->.
  { unfold get_viewport_selection in E. rewrite Ex in E. cbn [bind] in E. apply bind_ok in E as (p0&_&E). apply bind_ok in E as (p1&_&E). apply bind_ok in E as (p2&_&E). apply Nat.eqb_neq in Hab. rewrite Hab in E. now inv E. }
  split; [|split; [exact O|split; [|split]]].
  - clear - F. induction F as [|q y l ys (q'&->&Hq) F IH]; constructor; auto.
  - intros y Hy. apply I in Hy. unfold rng in Hy. lia.
  - intros y Hy Hc. apply I in Hy as (_&_&_&_&[Hy|Hy]); [exact Hy|now destruct Hc].
  - intros k Hk. apply C; lia.
Qed.
Print Assumptions C57_covers.
(** Of [12+x/y] with 2 to x selected: the number is a leaf and drawn whole, the sum is not *)
Example C57_covers_case : exists x pa pb, draw ascii_letter ascii_continue [sym "1"; sym "2"; sym "+"; sym "x"; sym "/"; sym "y"] = Ok x /\
  get_viewport_selection x [] 1 4 = Ok (pa, pb, [[0]; [1]; [2; 0]]) /\
  option_map element_range (element_at x [0]) = Some (0, 2) /\ option_map element_range (element_at x [2; 0]) = Some (3, 4).
Proof. do 3 eexists. split; [vm_compute; reflexivity|]. split; [vm_compute; reflexivity|]. split; reflexivity. Qed.
