(** The view for debugging marks the rows (C97). *)
From Coq Require Import String.
From Verif Require Import Base Str Grid Node Focus Autocomplete Spec NameMap Syntax Pratt Grammar SyntaxFind Render Layout DebugView SpecSyntax SpecPratt SpecRender SpecClick SpecStray
  BaseFacts TreeFacts ParseFacts GrammarFacts RenderFacts LayoutFacts ClickFacts ClosestFacts StrayFacts Samples PropsAuto PropsEditor PropsSafety PropsRender PropsView.
Open Scope list_scope.
Open Scope nat_scope.

Lemma elements_ok x : add_class (get_elements x) = Ok tt.
Proof. destruct x as [class n r l]. destruct class; reflexivity. Qed.
Definition go_debug (path : list nat) : nat -> list Element -> Res (list (list nat)) :=
  fix go k l := match l with [] => Ok [] | c :: l => a <- debug_render_rows c (path ++ [k]) ;; b <- go (S k) l ;; Ok (a ++ b) end.
Lemma debug_eq class n r l path : debug_render_rows (mkElement class n r l) path =
  (rest <- go_debug path 0 l ;; Ok (match r with Some _ => [path] | None => [] end ++ rest)).
Proof. cbn [debug_render_rows]. rewrite elements_ok. destruct r; reflexivity. Qed.
(** The marked elements are those with a row index. *)
Lemma debug_marks : forall m x path, element_size x < m -> exists l, debug_render_rows x path = Ok l /\
  forall q, In q l <-> exists q' y, q = path ++ q' /\ get_path x q' = Some y /\ el_row_index y <> None.
Proof.
  induction m as [|m IH]; intros x path Hm; [lia|]. destruct x as [class n r xs]. rewrite debug_eq.
  assert (G : forall ys k, (forall j c, nth_error ys j = Some c -> nth_error xs (k + j) = Some c) -> exists l, go_debug path k ys = Ok l /\
    forall q, In q l <-> exists j q' c y, nth_error ys j = Some c /\ q = path ++ (k + j) :: q' /\ get_path c q' = Some y /\ el_row_index y <> None).
  { induction ys as [|c ys IHy]; intros k Hin; cbn [go_debug].
    - exists []. split; [reflexivity|]. intros q. split; [easy|]. intros (j&?&?&?&E&_). destruct j; discriminate E.
    - assert (Ec : nth_error xs k = Some c) by (rewrite <- (Hin 0 c eq_refl), Nat.add_0_r; reflexivity).
      destruct (IH c (path ++ [k])) as (l1&->&H1); [pose proof (@size_child (mkElement class n r xs) k c Ec); lia|]. cbn [bind].
      destruct (IHy (S k)) as (l2&E2&H2); [intros j c' E; replace (S k + j) with (k + S j) by lia; now apply Hin|]. fold (go_debug path) in *. rewrite E2. cbn [bind]. exists (l1 ++ l2). split; [reflexivity|].
      intros q. rewrite in_app_iff, H1, H2. split.
      + intros [(q'&y&->&Ey&Hy)|(j&q'&c'&y&Ej&->&Ey&Hy)].
        * exists 0, q', c, y. rewrite Nat.add_0_r, <- app_assoc. auto.
        * exists (S j), q', c', y. rewrite Nat.add_succ_r. auto.
      + intros (j&q'&c'&y&Ej&->&Ey&Hy). destruct j as [|j]; cbn in Ej.
        * left. inv Ej. exists q', y. rewrite Nat.add_0_r, <- app_assoc. auto.
        * right. exists j, q', c', y. rewrite Nat.add_succ_r. auto. }
  destruct (G xs 0) as (l&->&Hl); [auto|]. cbn [bind]. eexists. split; [reflexivity|]. intros q. rewrite in_app_iff, Hl. split.
  - intros [Hq|(j&q'&c&y&Ej&->&Ey&Hy)].
    + destruct r as [r|]; [|easy]. destruct Hq as [<-|[]]. exists [], (mkElement class n (Some r) xs). rewrite app_nil_r. repeat split. discriminate.
    + exists (j :: q'), y. split; [reflexivity|]. cbn [get_path get_children]. rewrite Ej. auto.
  - intros (q'&y&->&Ey&Hy). destruct q' as [|j q']; cbn [get_path get_children] in Ey.
    + left. inv Ey. destruct r; [|now elim Hy]. left. now rewrite app_nil_r.
    + right. destruct (nth_error xs j) as [c|] eqn:Ej; [|discriminate Ey]. exists j, q', c, y. auto.
Qed.

(** * C97: the view for debugging marks the rows *)
(** It never throws. Marked are the elements that draw rows of containers and, as in C54, the script of such a row if the row is a script as a whole. *)
Theorem C97_marked : forall xs xc doc x, wf_row doc -> draw xs xc doc = Ok x -> exists marked, debug_view x = Ok marked /\
  forall path, In path marked <-> row_element x path \/
    exists q row, path = q ++ [1] /\ row_element x q /\ row_get doc (drawn_row x q) = Some row /\ script_row xs xc row = true.
Proof.
  intros xs xc doc x Hwf H. destruct (@debug_marks _ x [] (Nat.lt_succ_diag_r _)) as (l&E&Hl). exists l. split; [exact E|]. intros path. rewrite Hl. cbn [app]. clear l E Hl. apply draw_inv in H as (n&En&Hx).
  apply (row_elements Hwf En Hx).
Qed.
Print Assumptions C97_marked.
(** y^2 over 3: the numerator, the denominator and the row of the exponent are marked, and also the exponent itself. *)
Example C97_case : let doc := [fraction [sym "y"; sup [sym "2"]] [sym "3"]] in wf_row doc /\
  (exists x, draw ascii_letter ascii_continue doc = Ok x /\ debug_view x = Ok [[0]; [0; 1]; [0; 1; 0]; [1]] /\ drawn_row x [0] = [(0, 0)] /\ drawn_row x [0; 1; 0] = [(0, 0); (1, 0)]).
Proof. cbv zeta. split; [apply wf_rowb_ok; reflexivity|]. eexists. split; [vm_compute; reflexivity|]. repeat split; vm_compute; reflexivity. Qed.
