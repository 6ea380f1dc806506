(** Consequences of tiling: text, finding rows. *)
From Coq Require Import String.
From Verif Require Import Base Str Grid Node Focus Spec NameMap Syntax Pratt SyntaxFind SpecSyntax BaseFacts TreeFacts ParseFacts ParseTotal.
Open Scope list_scope.
Open Scope nat_scope.
Set Implicit Arguments.
Unset Strict Implicit.

(** ** Text *)
Definition part (row : InputRow) (s e : nat) : InputRow := firstn (e - s) (skipn s row).
Lemma skipn_twice A (l : list A) a b : skipn a (skipn b l) = skipn (a + b) l.
Proof.
  revert l. induction b as [|b IH]; intros l; [now rewrite Nat.add_0_r|]. rewrite Nat.add_succ_r. destruct l as [|x l].
  - now rewrite skipn_nil.
  - cbn [skipn]. apply IH.
Qed.
Lemma part_app row s m e : s <= m -> m <= e -> part row s e = part row s m ++ part row m e.
Proof.
  intros H H'. unfold part. replace (e - s) with ((m - s) + (e - m)) by lia. rewrite <- (firstn_skipn (m - s) (skipn s row)) at 1.
  rewrite firstn_app. f_equal.
  - rewrite firstn_firstn. f_equal. lia.
  - rewrite skipn_twice. replace (m - s + s) with m by lia. rewrite firstn_length, skipn_length.
    destruct (le_lt_dec m (length row)).
    + f_equal. lia.
    + rewrite !skipn_all2 by lia. now rewrite !firstn_nil.
Qed.
Lemma part_all row : part row 0 (length row) = row.
Proof. unfold part. now rewrite Nat.sub_0_r, firstn_all. Qed.
Lemma symbols_part_app row s m e : s <= m -> m <= e -> symbols (part row s e) = symbols (part row s m) ++ symbols (part row m e).
Proof. intros. unfold symbols. now rewrite (part_app row (m := m)), map_app, concat_app. Qed.
Lemma symbols_map l : symbols (map Symbol l) = l.
Proof. unfold symbols. induction l as [|s l IH]; [reflexivity|]. cbn. now rewrite IH. Qed.

Lemma covers_text_all :
  (forall row s e n, covers row s e n -> leaf_text n = concat (symbols (part row s e))) /\
  (forall row s e l, tiles row s e l -> concat (map leaf_text l) = concat (symbols (part row s e))) /\
  (forall cells nodes, covers_cells cells nodes -> concat (map leaf_text nodes) = concat (concat (map symbols cells))).
Proof.
  apply covers_mutind.
  - intros row s e name l _ IH. exact IH.
  - intros row s name ty symbols l tail E Hl Hc. cbn [leaf_text]. unfold part. replace (s + length l - s) with (length l) by lia.
    rewrite E, <- (map_length (@Symbol) l), firstn_app_exact, symbols_map. exact Hc.
  - intros row s name v cells w nodes En _ IH. cbn [leaf_text]. rewrite IH. unfold part. replace (S s - s) with 1 by lia.
    destruct (skipn_lt (nth_error_Some_lt En)) as [x E]. destruct (skipn_cons_S E) as (_&_&E'). rewrite E' in En. inv En. rewrite E.
    unfold symbols. cbn [firstn map node_symbols concat]. now rewrite app_nil_r.
  - intros row s. unfold part. now rewrite Nat.sub_diag.
  - intros row s m e n l Cn IHn Cl IHl. cbn [map concat]. rewrite IHn, IHl, <- concat_app, <- symbols_part_app; [reflexivity| |].
    + eapply covers_le; eauto.
    + eapply tiles_le; eauto.
  - reflexivity.
  - intros cell cells n nodes _ IHn _ IHc. cbn [map concat]. now rewrite IHn, IHc, part_all, concat_app.
Qed.
Lemma covers_text row n : covers row 0 (length row) n -> leaf_text n = concat (symbols row).
Proof. intros H. rewrite (proj1 covers_text_all _ _ _ _ H). now rewrite part_all. Qed.

(** ** Finding rows *)
Definition go_child (k : nat) : list SyntaxNode -> Res (GridVec SyntaxNode) :=
  fix go l :=
    match l with
    | [] => Panic PAssert
    | c :: l => if in_range c k then get_child_with_new_rows c k else go l
    end.
Lemma get_child_all k v cells w :
  (forall row s e n, covers row s e n -> nth_error row k = Some (Container v (mkGrid cells w)) -> s <= k < e ->
     exists nodes, get_child_with_new_rows n k = Ok (mkGrid nodes w) /\ covers_cells cells nodes) /\
  (forall row s e l, tiles row s e l -> nth_error row k = Some (Container v (mkGrid cells w)) -> s <= k < e ->
     exists nodes, go_child k l = Ok (mkGrid nodes w) /\ covers_cells cells nodes) /\
  (forall cells nodes, covers_cells cells nodes -> True).
Proof.
  apply covers_mutind; auto.
  - intros row s name ty symbols l tail E Hl Hc En Hk. exfalso.
    assert (E' : nth_error (skipn s row) (k - s) = nth_error row k).
    { rewrite <- (firstn_skipn s row) at 2. rewrite nth_error_app2; rewrite firstn_length.
      - f_equal. apply nth_error_Some_lt in En. lia.
      - lia. }
    rewrite E, En, nth_error_app1, nth_error_map in E' by (rewrite map_length; lia).
    destruct (nth_error l (k - s)); discriminate.
  - intros row s name v' cells' w' nodes En' C _ En Hk. assert (k = s) as -> by lia. rewrite En in En'. inv En'.
    exists nodes. split; [reflexivity|exact C].
  - intros. lia.
  - intros row s m e n l Cn IHn Cl IHl En Hk. cbn [go_child]. unfold in_range. rewrite (covers_range Cn). cbn [fst snd].
    destruct ((s <=? k) && (k <? m)) eqn:E; [apply IHn; auto; lia|]. apply IHl; auto. lia.
Qed.
Lemma covers_cells_length cells nodes : covers_cells cells nodes -> length nodes = length cells.
Proof. induction 1; cbn; congruence. Qed.
Lemma covers_cells_nth cells nodes j cell : covers_cells cells nodes -> nth_error cells j = Some cell ->
  exists n, nth_error nodes j = Some n /\ covers cell 0 (length cell) n.
Proof.
  intros H. revert j. induction H as [|c cells n nodes Cn Cc IH]; intros [|j] E; try discriminate.
  - cbn in E. inv E. exists n. auto.
  - apply IH. exact E.
Qed.
Theorem find_row doc n p row : covers doc 0 (length doc) n -> row_get doc p = Some row ->
  exists n', get_node_with_row_indices n p = Ok n' /\ covers row 0 (length row) n'.
Proof.
  revert doc n. induction p as [|[k j] p IH]; intros doc n C E; cbn [row_get] in E.
  - inv E. exists n. auto.
  - destruct (nth_error doc k) as [[v [cells w]|s]|] eqn:Ek; try discriminate. cbn [gvalues] in E.
    destruct (nth_error cells j) as [cell|] eqn:Ej; [|discriminate].
    pose proof (nth_error_Some_lt Ek). cbn [get_node_with_row_indices]. unfold in_range. rewrite (covers_range C). cbn [fst snd].
    assert ((0 <=? k) && (k <? length doc) = true) as -> by lia. cbn [assert_ bind].
    destruct (proj1 (get_child_all k v cells w) _ _ _ _ C Ek) as (nodes&->&Cn); [lia|]. cbn [bind gvalues].
    destruct (covers_cells_nth Cn Ej) as (n'&->&C'). eapply IH; eauto.
Qed.

(** ** The tree of a row is what parsing the row returns *)
Lemma get_child_tree P k v cells w :
  (forall row s e n, gtree P row s e n -> nth_error row k = Some (Container v (mkGrid cells w)) -> s <= k < e ->
     exists nodes, get_child_with_new_rows n k = Ok (mkGrid nodes w) /\ Forall2 P cells nodes) /\
  (forall row s e l, gtiles P row s e l -> nth_error row k = Some (Container v (mkGrid cells w)) -> s <= k < e ->
     exists nodes, go_child k l = Ok (mkGrid nodes w) /\ Forall2 P cells nodes).
Proof.
  apply gtree_mutind; auto.
  - intros row s name ty symbols l tail E Hl Hc En Hk. exfalso.
    assert (E' : nth_error (skipn s row) (k - s) = nth_error row k).
    { rewrite <- (firstn_skipn s row) at 2. rewrite nth_error_app2; rewrite firstn_length.
      - f_equal. apply nth_error_Some_lt in En. lia.
      - lia. }
    rewrite E, En, nth_error_app1, nth_error_map in E' by (rewrite map_length; lia).
    destruct (nth_error l (k - s)); discriminate.
  - intros row s name v' cells' w' nodes En' C En Hk. assert (k = s) as -> by lia. rewrite En in En'. inv En'.
    exists nodes. split; [reflexivity|exact C].
  - intros. lia.
  - intros row s m e n l Cn IHn Cl IHl En Hk. cbn [go_child]. unfold in_range. rewrite (gtree_range Cn). cbn [fst snd].
    destruct ((s <=? k) && (k <? m)) eqn:E; [apply IHn; auto; lia|]. apply IHl; auto. lia.
Qed.
Lemma Forall2_nth_l A B (R : A -> B -> Prop) l l' j x : Forall2 R l l' -> nth_error l j = Some x -> exists y, nth_error l' j = Some y /\ R x y.
Proof.
  intros H. revert j. induction H as [|a b l l' Hab H IH]; intros [|j] E; try discriminate.
  - cbn in E. inv E. exists b. auto.
  - apply IH. exact E.
Qed.
Theorem find_parsed g doc n p row : no_empty_tokens g -> all_containers g -> wf_row doc -> parse g doc = Ok n -> row_get doc p = Some row ->
  exists n', get_node_with_row_indices n p = Ok n' /\ parse g row = Ok n'.
Proof.
  intros Ht Hc. revert doc n. induction p as [|[k j] p IH]; intros doc n Hwf En E; cbn [row_get] in E.
  - inv E. exists n. auto.
  - destruct (nth_error doc k) as [[v [cells w]|s]|] eqn:Ek; try discriminate. cbn [gvalues] in E.
    destruct (nth_error cells j) as [cell|] eqn:Ej; [|discriminate]. destruct (parse_gtree Ht Hc Hwf) as (m&Em&C). rewrite En in Em. inv Em.
    pose proof (nth_error_Some_lt Ek). cbn [get_node_with_row_indices]. unfold in_range. rewrite (gtree_range C). cbn [fst snd].
    assert ((0 <=? k) && (k <? length doc) = true) as -> by lia. cbn [assert_ bind].
    destruct (proj1 (get_child_tree (P g) k v cells w) _ _ _ _ C Ek) as (nodes&->&Cn); [lia|]. cbn [bind gvalues].
    destruct (Forall2_nth_l Cn Ej) as (n'&->&Hn').
    assert (Hw : wf_row cell). { pose proof (wf_row_nth Hwf Ek) as Hn. apply wf_container_inv in Hn as (_&_&_&Hx). apply Hx. eapply nth_error_In; eauto. }
    eapply IH; eauto. now apply P_parse.
Qed.
