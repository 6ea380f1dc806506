(** What is drawn of the other rows does not depend on what is in a row. *)
From Coq Require Import String.
From Verif Require Import Base Str Grid Node Autocomplete NameMap Syntax SyntaxFind Pratt Grammar Render Spec SpecSyntax SpecLocal BaseFacts TreeFacts EditFacts ParseFacts ParseTotal FindFacts LocalFacts.
Open Scope list_scope.
Open Scope nat_scope.
Set Implicit Arguments.
Unset Strict Implicit.

Lemma mapi_length A B (f : nat -> A -> Res B) l : forall k r, mapi_res f k l = Ok r -> length r = length l.
Proof. induction l as [|x l IH]; intros k r H; cbn in H; [now inv H|]. apply bind_ok in H as (y&_&H). apply bind_ok in H as (r'&Hr&H). inv H. cbn. f_equal. exact (IH _ _ Hr). Qed.
Lemma mapi_middle A B (f : nat -> A -> Res B) l1 c l2 : forall k r, mapi_res f k (l1 ++ c :: l2) = Ok r ->
  exists r1 y r2, r = r1 ++ y :: r2 /\ mapi_res f k l1 = Ok r1 /\ f (k + length l1) c = Ok y /\ mapi_res f (S (k + length l1)) l2 = Ok r2.
Proof.
  induction l1 as [|x l1 IH]; intros k r H; cbn [app mapi_res length] in *.
  - apply bind_ok in H as (y&Hy&H). apply bind_ok in H as (r2&Hr&H). inv H. rewrite Nat.add_0_r. exists [], y, r2. auto.
  - apply bind_ok in H as (y0&Hy0&H). apply bind_ok in H as (r'&Hr&H). inv H. destruct (IH _ _ Hr) as (r1&y&r2&->&H1&Hy&H2). exists (y0 :: r1), y, r2. rewrite Hy0, H1, <- Nat.add_succ_comm. auto.
Qed.
Ltac drawn H := repeat match type of H with
  | (match ?o with Some _ => _ | None => _ end) = Ok _ => let E := fresh in destruct o eqn:E
  | throw = Ok _ => discriminate H
  | Panic _ = Ok _ => discriminate H
  | (match ?m with Ok _ => _ | Panic _ => _ end) = Ok _ => let x := fresh "xs" in let X := fresh "X" in destruct m as [x|] eqn:X; [|discriminate H]
  | bind _ _ = Ok _ => let x := fresh "xs" in let X := fresh "X" in apply bind_ok in H as (x&X&H); try discriminate X
  end.
Section Induction.
Variable P : SyntaxNode -> Prop.
Hypothesis HC : forall name l s e, Forall P l -> P (mkSyntax name (Children l) s e).
Hypothesis HR : forall name l w s e, Forall P l -> P (mkSyntax name (NewRows (mkGrid l w)) s e).
Hypothesis HL : forall name ty l s e, P (mkSyntax name (Leaf ty l) s e).
Fixpoint syntax_induction (n : SyntaxNode) : P n :=
  let all := fix all (l : list SyntaxNode) : Forall P l := match l with [] => Forall_nil P | n :: l => @Forall_cons _ P n l (syntax_induction n) (all l) end in
  match n with
  | mkSyntax name (Children l) s e => HC name s e (all l)
  | mkSyntax name (NewRows (mkGrid l w)) s e => HR name w s e (all l)
  | mkSyntax name (Leaf ty l) s e => HL name ty l s e
  end.
End Induction.
Lemma mapi_transfer A B C (f : nat -> A -> Res B) (g : nat -> A -> Res C) l : Forall (fun c => forall k x, f k c = Ok x -> exists y, g k c = Ok y) l ->
  forall k r, mapi_res f k l = Ok r -> exists r', mapi_res g k l = Ok r'.
Proof.
  induction 1 as [|c l Hc Hl IH]; intros k r H; cbn [mapi_res] in *; [eauto|]. apply bind_ok in H as (x&Hx&H). apply bind_ok in H as (r1&Hr&_).
  destruct (Hc _ _ Hx) as (y&->). destruct (IH _ _ Hr) as (r'&->). cbn [bind]. eauto.
Qed.
Lemma mapi_put A B (f : nat -> A -> Res B) l1 c c' l2 y : forall k r, mapi_res f k (l1 ++ c :: l2) = Ok r -> f (k + length l1) c' = Ok y -> exists r', mapi_res f k (l1 ++ c' :: l2) = Ok r'.
Proof.
  induction l1 as [|d l1 IH]; intros k r H Hy; cbn [app mapi_res length] in *.
  - rewrite Nat.add_0_r in Hy. apply bind_ok in H as (x&_&H). apply bind_ok in H as (r2&Hr&_). rewrite Hy, Hr. cbn [bind]. eauto.
  - apply bind_ok in H as (x&Hx&H). apply bind_ok in H as (r2&Hr&_). rewrite <- Nat.add_succ_comm in Hy. destruct (IH _ _ Hr Hy) as (r'&E). rewrite Hx, E. cbn [bind]. eauto.
Qed.
Section Draw.
Variable rs : Renderers.
(** The class of a node with children, and the options for its children, as in renderer.ts:47-207 *)
Definition children_plan (name : PathIdentifier) (i : option RowIndex) (o : Options) : ElementClass * Options :=
  match get_renderer rs name with
  | Some RenderWhitespaces => (SimpleContainer Tmrow, o)
  | Some (RenderScript tag) => (SimpleContainer tag, mkOptions false (Some i))
  | Some (RenderSimple stretchy) => (SimpleContainer Tmrow, mkOptions stretchy None)
  | _ => (SimpleContainer Tmrow, no_options)
  end.
Lemma children_drawn name l s e i o x : l <> [] -> render rs (mkSyntax name (Children l) s e) i o = Ok x ->
  exists xs, x = mkElement (fst (children_plan name i o)) (mkSyntax name (Children l) s e) i xs /\ mapi_res (fun _ c => render rs c None (snd (children_plan name i o))) 0 l = Ok xs.
Proof.
  intros Hl H. cbn [render] in H. unfold children_plan. destruct (get_renderer rs name) as [[| | | | | | | | |]|];
    try (destruct l; [contradiction|discriminate H]); try discriminate H; drawn H; inv H; eexists; (split; [reflexivity|eassumption]).
Qed.
(** The class of a node with rows, and the row index it is given, as in renderer.ts:47-207 *)
Definition rows_plan (name : PathIdentifier) (i : option RowIndex) (o : Options) : ElementClass * option RowIndex :=
  match get_renderer rs name with
  | Some RenderOperator => (RowsContainer Tmrow, match opt_override o with Some i => i | None => i end)
  | Some (RenderRows tag) => (RowsContainer tag, i)
  | Some RenderTable => (TableElement, i)
  | _ => (RootElement, i)
  end.
Lemma rows_drawn name l w s e i o x : render rs (mkSyntax name (NewRows (mkGrid l w)) s e) i o = Ok x ->
  exists xs, x = mkElement (fst (rows_plan name i o)) (mkSyntax name (NewRows (mkGrid l w)) s e) (snd (rows_plan name i o)) xs /\ mapi_res (fun j c => render rs c (Some (s, j)) no_options) 0 l = Ok xs.
Proof.
  intros H. cbn [render] in H. unfold rows_plan. destruct (get_renderer rs name) as [[| | | | | | | | |]|];
    try discriminate H; try (destruct (opt_override o) as [i'|]; [|discriminate H]); drawn H; inv H; eexists; (split; [reflexivity|eassumption]).
Qed.
Lemma drawn_tree n i o x : render rs n i o = Ok x -> el_tree x = n.
Proof.
  intros H. destruct n as [name c s e]. destruct c as [[l w]|l|ty l].
  - apply rows_drawn in H as (xs&->&_). reflexivity.
  - destruct l as [|n l].
    + cbn [render mapi_res] in H. destruct (get_renderer rs name) as [[| | | | | | | | |]|]; try discriminate H; drawn H; now inv H.
    + apply children_drawn in H as (xs&->&_); [reflexivity|discriminate].
  - cbn [render] in H. destruct (get_renderer rs name) as [[| | | | | | | | |]|]; try discriminate H; drawn H; now inv H.
Qed.
Lemma drawn_index n i x : render rs n i no_options = Ok x -> el_row_index x = i.
Proof.
  intros H. destruct n as [name c s e]. destruct c as [[l w]|l|ty l].
  - apply rows_drawn in H as (xs&->&_). unfold rows_plan. destruct (get_renderer rs name) as [[]|]; reflexivity.
  - destruct l as [|n l].
    + cbn [render mapi_res] in H. destruct (get_renderer rs name) as [[| | | | | | | | |]|]; try discriminate H; drawn H; now inv H.
    + apply children_drawn in H as (xs&->&_); [reflexivity|discriminate].
  - cbn [render] in H. destruct (get_renderer rs name) as [[| | | | | | | | |]|]; try discriminate H; drawn H; now inv H.
Qed.
(** Proof vocabulary: the row index and the options with which the row [p] below is drawn *)
Fixpoint index_below (p : RowIndices) (i : option RowIndex) : option RowIndex := match p with [] => i | k :: p => index_below p (Some k) end.
Definition options_below (p : RowIndices) (o : Options) : Options := match p with [] => o | _ => no_options end.
Lemma index_of p : index_below p None = row_index_of p.
Proof.
  unfold row_index_of. induction p as [|k p _] using rev_ind; [reflexivity|]. rewrite rev_app_distr. cbn [rev app]. generalize (@None RowIndex). induction p as [|k' p IH]; intros i; [reflexivity|]. cbn. apply IH.
Qed.
Lemma drawing p a b t u : tree_replaced p a b t u -> forall i o x y, render rs t i o = Ok x -> render rs u i o = Ok y ->
  exists xa yb, render rs a (index_below p i) (options_below p o) = Ok xa /\ render rs b (index_below p i) (options_below p o) = Ok yb /\ drawing_replaced p xa yb x y.
Proof.
  induction 1 as [a b|k j p a b name l1 c c' l2 s e Hr T IH|k p a b name l1 c c' l2 w e T IH]; intros i o x y Hx Hy.
  - exists x, y. repeat split; auto. constructor.
  - apply children_drawn in Hx as (xs&->&Hx); [|now destruct l1]. apply children_drawn in Hy as (ys&->&Hy); [|now destruct l1].
    apply mapi_middle in Hx as (r1&z&r2&->&H1&Hz&H2). apply mapi_middle in Hy as (r1'&z'&r2'&->&H1'&Hz'&H2'). rewrite H1 in H1'. injection H1' as <-. rewrite H2 in H2'. injection H2' as <-.
    destruct (IH _ _ _ _ Hz Hz') as (xa&yb&A&B&D). exists xa, yb. split; [exact A|]. split; [exact B|]. constructor; [now rewrite (drawn_tree Hz)|exact D].
  - apply rows_drawn in Hx as (xs&->&Hx). apply rows_drawn in Hy as (ys&->&Hy).
    apply mapi_middle in Hx as (r1&z&r2&->&H1&Hz&H2). apply mapi_middle in Hy as (r1'&z'&r2'&->&H1'&Hz'&H2'). rewrite H1 in H1'. injection H1' as <-. rewrite H2 in H2'. injection H2' as <-. cbn [Nat.add] in Hz, Hz'.
    destruct (IH _ _ _ _ Hz Hz') as (xa&yb&A&B&D). exists xa, yb. assert (Eo : options_below p no_options = no_options) by now destruct p. rewrite Eo in A, B. cbn [index_below options_below].
    split; [exact A|]. split; [exact B|]. rewrite <- (mapi_length H1). constructor; [rewrite (drawn_index Hz), (mapi_length H1); reflexivity|exact D].
Qed.
(** A node that can be drawn can also be drawn with other children that can be drawn and look the same from outside. *)
Lemma children_redrawn name l l' s e i o x xs i' o' : l <> [] -> length l = length l' -> is_new_rows (nth_error l 1) = is_new_rows (nth_error l' 1) ->
  (opt_override o = None <-> opt_override o' = None) ->
  render rs (mkSyntax name (Children l) s e) i o = Ok x -> mapi_res (fun _ c => render rs c None (snd (children_plan name i' o'))) 0 l' = Ok xs ->
  exists y, render rs (mkSyntax name (Children l') s e) i' o' = Ok y.
Proof.
  intros Hl Hn Hr Ho H Hxs. cbn [render] in *. unfold children_plan in Hxs. destruct (get_renderer rs name) as [[| | | | | | | | |]|];
    try (destruct l; [contradiction|discriminate H]); try discriminate H; drawn H; cbn [snd] in Hxs;
    repeat match goal with Hm : mapi_res _ 0 l = Ok _ |- _ => apply mapi_length in Hm end; pose proof (mapi_length Hxs) as Hm';
    rewrite <- ?Hr; rewrite Hxs; cbn [bind]; rewrite Hm', <- Hn;
    repeat match goal with Hm : length _ = length l |- _ => rewrite <- Hm; clear Hm end;
    repeat match goal with Ha : assert_ ?b = Ok _ |- context [assert_ ?b] => rewrite Ha; cbn [bind] end; eauto.
Qed.
Lemma rows_redrawn name l l' w s e i o x xs i' o' : length l = length l' -> (opt_override o = None <-> opt_override o' = None) ->
  render rs (mkSyntax name (NewRows (mkGrid l w)) s e) i o = Ok x -> mapi_res (fun j c => render rs c (Some (s, j)) no_options) 0 l' = Ok xs ->
  exists y, render rs (mkSyntax name (NewRows (mkGrid l' w)) s e) i' o' = Ok y.
Proof.
  intros Hn Ho H Hxs. cbn [render] in *. destruct (get_renderer rs name) as [[| | | | | | | | |]|]; try discriminate H;
    try (destruct (opt_override o) as [r|]; [|discriminate H]; destruct (opt_override o') as [r'|]; [|destruct Ho as [_ Ho]; specialize (Ho eq_refl); discriminate Ho]);
    drawn H; repeat match goal with Hm : mapi_res _ 0 l = Ok _ |- _ => apply mapi_length in Hm end; pose proof (mapi_length Hxs) as Hm';
    rewrite <- ?Hn;
    repeat match goal with Ha : assert_ ?b = Ok _ |- context [assert_ ?b] => rewrite Ha; cbn [bind] | Ha : (if ?b then _ else _) = Ok _ |- context [if ?b then _ else _] => rewrite Ha; cbn [bind] end;
    rewrite Hxs; cbn [bind]; rewrite Hm', <- Hn;
    repeat match goal with Hm : length _ = length l |- _ => rewrite <- Hm; clear Hm end;
    repeat match goal with Ha : assert_ ?b = Ok _ |- context [assert_ ?b] => rewrite Ha; cbn [bind] end; eauto.
Qed.
(** Where a node is does not matter for whether it can be drawn. *)
Lemma drawn_anywhere n : forall i o x i' o', (opt_override o = None <-> opt_override o' = None) -> render rs n i o = Ok x -> exists y, render rs n i' o' = Ok y.
Proof.
  induction n as [name l s e IH|name l w s e IH|name ty l s e] using syntax_induction; intros i o x i' o' Ho H.
  - destruct l as [|c l].
    + cbn [render mapi_res] in *. destruct (get_renderer rs name) as [[| | | | | | | | |]|]; try discriminate H; drawn H; cbn [bind];
      repeat match goal with Ha : assert_ ?b = Ok _ |- context [assert_ ?b] => rewrite Ha; cbn [bind] end; eauto.
    + destruct (children_drawn (l := c :: l) ltac:(discriminate) H) as (xs&_&Hxs).
      destruct (mapi_transfer (f := fun _ c => render rs c None (snd (children_plan name i o))) (g := fun _ c => render rs c None (snd (children_plan name i' o'))) (l := c :: l)) with (2 := Hxs) as (ys&Hys).
      * eapply Forall_impl; [|exact IH]. cbn beta. intros d Hd _ z Hz. refine (Hd _ _ _ _ _ _ Hz). unfold children_plan. destruct (get_renderer rs name) as [[| | | | | | | | |]|]; cbn [snd opt_override no_options]; try tauto; split; discriminate.
      * refine (children_redrawn (l := c :: l) (l' := c :: l) _ _ _ Ho H Hys); [discriminate|reflexivity|reflexivity].
  - destruct (rows_drawn H) as (xs&_&Hxs). exact (rows_redrawn (l := l) (l' := l) i' eq_refl Ho H Hxs).
  - cbn [render] in *. destruct (get_renderer rs name) as [[| | | | | | | | |]|]; try discriminate H; drawn H; cbn [bind]; eauto.
    all: destruct (opt_override o); discriminate H.
Qed.
Lemma replaced_kind p a b t u : tree_replaced p a b t u -> p <> [] -> is_new_rows (Some t) = is_new_rows (Some u).
Proof. destruct 1; intros Hp; [contradiction|reflexivity|reflexivity]. Qed.
Lemma redrawn p a b t u : tree_replaced p a b t u -> forall i o x yb, render rs t i o = Ok x -> render rs b (index_below p i) (options_below p o) = Ok yb -> exists y, render rs u i o = Ok y.
Proof.
  induction 1 as [a b|k j p a b name l1 c c' l2 s e Hr T IH|k p a b name l1 c c' l2 w e T IH]; intros i o x yb Hx Hy.
  - eauto.
  - destruct (children_drawn (l := l1 ++ c :: l2) ltac:(now destruct l1) Hx) as (xs&_&Hxs). destruct (mapi_middle Hxs) as (r1&z&r2&_&_&Hz&_).
    destruct (IH _ _ _ _ Hz Hy) as (z'&Hz'). destruct (mapi_put Hxs (c' := c') Hz') as (ys&Hys).
    refine (children_redrawn (l' := l1 ++ c' :: l2) _ _ _ _ Hx Hys); [now destruct l1|now rewrite !app_length| |tauto].
    destruct l1 as [|d [|d' l1]]; cbn; [reflexivity| |reflexivity]. refine (replaced_kind T _). discriminate.
  - destruct (rows_drawn Hx) as (xs&_&Hxs). destruct (mapi_middle Hxs) as (r1&z&r2&_&_&Hz&_). cbn [Nat.add] in Hz. assert (Eo : options_below p no_options = no_options) by now destruct p.
    cbn [index_below options_below] in Hy. rewrite <- Eo in Hy. destruct (IH _ _ _ _ Hz Hy) as (z'&Hz'). destruct (mapi_put Hxs (c' := c') Hz') as (ys&Hys).
    refine (rows_redrawn (l' := l1 ++ c' :: l2) i _ _ Hx Hys); [now rewrite !app_length|tauto].
Qed.
End Draw.
