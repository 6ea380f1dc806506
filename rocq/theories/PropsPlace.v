(** Which offsets are drawn at the same place (C53). *)
From Coq Require Import String.
From Verif Require Import Base Str Grid Node Focus Autocomplete Spec NameMap Syntax Pratt Grammar SyntaxFind Render Layout SpecSyntax SpecPratt SpecRender SpecPlace
  BaseFacts TreeFacts ParseFacts ParseTotal GrammarFacts FindFacts ShapeFacts RenderFacts LayoutFacts ClickFacts PlaceFacts Samples PropsRender.
Open Scope list_scope.
Open Scope nat_scope.

(** Two offsets in a row are drawn at the same place exactly if both are inside of the same "lim", "limsup" or "liminf" of the tree of this row. *)
Theorem C53_exact : forall xs xc doc x p row x' i j, wf_row doc -> draw xs xc doc = Ok x -> row_get doc p = Some row -> get_element x p = Ok x' ->
  i < j -> j <= List.length row ->
  ((exists place, get_caret_position x' [] i = Ok place /\ get_caret_position x' [] j = Ok place) <->
   exists n, parse (default_grammar xs xc) row = Ok n /\ inside_limit n i j).
Proof.
  intros xs xc doc x p row x' i j Hwf H Hrow Ex Hij Hj. apply draw_inv in H as (n&En&Hx).
  destruct (find_parsed (@default_no_empty_tokens xs xc) (@default_all_containers xs xc) Hwf En Hrow) as (n'&En'&Ep).
  destruct (get_element_mirror (render_all_mirror Hx) En') as (x2&o'&ri'&Ex2&M). rewrite Ex in Ex2. injection Ex2 as <-. pose proof (row_get_wf Hwf Hrow) as Hwr.
  destruct (parse_gtree (@default_no_empty_tokens xs xc) (@default_all_containers xs xc) Hwr) as (n2&En2&T). rewrite Ep in En2. injection En2 as <-. split.
  - intros (place&Hi&Hj'). exists n'. split; [exact Ep|]. destruct (proj1 (same_place default_renderers) _ _ _ _ M [] i j place Hi Hj' Hij) as (s&e&l&Hl&Hs&He&Hlen).
    destruct (leaves_row (limit_leaves Ep) Hl) as [Hl'|(w&Hw&->&->)]; [lia|]. exists w, s. auto.
  - intros (n2&En2&w&s&Hw&Hl&Hs&He). rewrite Ep in En2. injection En2 as <-.
    destruct (proj1 (@leaf_one_place default_renderers (P (default_grammar xs xc)) s (s + List.length w) [w] ltac:(discriminate)) _ _ _ _ M _ _ _ T Hl []) as (place&Hp).
    exists place. split; apply Hp; cbn [List.length]; lia.
Qed.
Print Assumptions C53_exact.
(** In "alim" and at the ends of "lim" different offsets have different places; in x_limsup those inside of the word do not. *)
Example C53_alim : exists x, draw ascii_letter ascii_continue [sym "a"; sym "l"; sym "i"; sym "m"] = Ok x /\
  map (get_caret_position x []) (seq 0 5) = map Ok [([], AtLeft); ([], AtText 1); ([], AtText 2); ([], AtText 3); ([], AtRight)].
Proof. eexists. split; [vm_compute; reflexivity|]. vm_compute. reflexivity. Qed.
Example C53_limsup : let doc := [sym "x"; sub (map (fun c => Symbol [c]) (lit "limsup"))] in wf_row doc /\
  exists x x' n, draw ascii_letter ascii_continue doc = Ok x /\ row_get doc [(1, 0)] = Some (map (fun c => Symbol [c]) (lit "limsup")) /\
  get_element x [(1, 0)] = Ok x' /\ parse (default_grammar ascii_letter ascii_continue) (map (fun c => Symbol [c]) (lit "limsup")) = Ok n /\ inside_limit n 1 5 /\ ~ inside_limit n 0 1.
Proof.
  cbv zeta. split; [apply wf_rowb_ok; reflexivity|]. do 3 eexists. split; [vm_compute; reflexivity|]. split; [reflexivity|]. split; [vm_compute; reflexivity|]. split; [vm_compute; reflexivity|]. split.
  - exists (lit "limsup"), 0. split; [cbn; auto|]. split; [|cbn; lia]. eapply leaf_below; [left; reflexivity|]. apply leaf_itself.
  - intros (w&s&_&_&H&_). lia.
Qed.
