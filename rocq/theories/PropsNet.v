(** Of what is typed, only what remains counts (C103). *)
From Coq Require Import String.
From Verif Require Import Base Str Grid Node Focus Edit Caret Autocomplete Editor Rules Spec SpecAuto SpecMove SpecEditor SpecText SpecSafety SpecNet BaseFacts TreeFacts EditFacts
  EditorFacts HistoryFacts OpFacts SpliceFacts TypingFacts MoveFacts SafetyFacts SafetyProofs Samples PropsAuto PropsEditor PropsSafety.
Open Scope list_scope.
Open Scope nat_scope.

Section Net.
Context {SyntaxNode : Type}.
Variable env : Env SyntaxNode.
Hypothesis Hascii : Forall ascii_rule (env_rules env).
Implicit Type ed : MathEditor SyntaxNode.
Lemma matcher_works ed : proper nonempty (ed_input ed) -> valid_caret (ed_input ed) (ed_caret ed) -> exists x, get_autocomplete env ed = Ok x.
Proof.
  intros Hp Hc. set (ed0 := mkEditor (ed_input ed) None (ed_caret ed) None (ed_autocomplete ed) undo_new : MathEditor SyntaxNode).
  assert (S : sound env nonempty ed0) by (split; [exact Hp|exact Hc|constructor|constructor]).
  destruct (autocomplete_ok S (fun s h => h) Hascii) as ([ed1 r]&H). unfold get_autocomplete in *. cbn [ed0 ed_input ed_caret ed_autocomplete] in H.
  apply bind_ok in H as (c&Hc'&H). rewrite Hc'. cbn [bind]. destruct (c_selection c) as [range|g]; [|eauto]. destruct (rg_is_collapsed range); [|eauto]. cbv zeta in *.
  apply bind_ok in H as (ms&Hms&H). rewrite Hms. cbn [bind]. apply bind_ok in H as ([cur res]&Hst&H). rewrite Hst. cbn. eauto.
Qed.
Lemma caret_of_position ed q : wf_row (ed_input ed) -> valid_pos (ed_input ed) q -> ed_caret ed = collapsed q -> get_caret ed = Ok (MSelRow (mkMinRange (mp_row q) (mp_offset q) (mp_offset q))).
Proof. intros Hwf V Hc. destruct (@collapsed_caret (ed_input ed) q Hwf V) as (q'&G&Eq&Ec). unfold get_caret. rewrite Hc, Ec. cbn. rewrite <- Eq. reflexivity. Qed.
(** The part of the row [p] of [doc] from [i] to [j] has been replaced by the text, and the caret is behind it. *)
Record shows_typed (doc : InputRow) (p : RowIndices) (row : list InputNode) (i j : nat) (text : list str) ed : Prop := mkShows {
  st_doc : replaced p row (firstn i row ++ map Symbol text ++ skipn j row) doc (ed_input ed);
  st_caret : ed_caret ed = collapsed (mkMinPos p (i + List.length text));
  st_proper : proper nonempty (ed_input ed) }.
Context {doc : InputRow} {p : RowIndices} {row : list InputNode} {i j : nat}.
Hypothesis Hi : i <= List.length row.
Lemma shows_pos text ed : shows_typed doc p row i j text ed -> valid_pos (ed_input ed) (mkMinPos p (i + List.length text)).
Proof. intros [R _ _]. eexists. split; [exact (replaced_get_new R)|]. cbn. rewrite !app_length, firstn_length, map_length. lia. Qed.
Lemma shows_matcher text ed : shows_typed doc p row i j text ed -> exists x, get_autocomplete env ed = Ok x.
Proof. intros H. apply matcher_works; [exact (st_proper _ _ _ _ _ _ _ H)|]. rewrite (st_caret _ _ _ _ _ _ _ H). pose proof (shows_pos _ _ H). split; assumption. Qed.
Lemma shows_caret text ed : shows_typed doc p row i j text ed -> get_caret ed = Ok (MSelRow (mkMinRange p (i + List.length text) (i + List.length text))).
Proof.
  intros H. exact (caret_of_position _ _ (proj1 (st_proper _ _ _ _ _ _ _ H)) (shows_pos _ _ H) (st_caret _ _ _ _ _ _ _ H)).
Qed.
Lemma firstn_ends (a b : list InputNode) n : n = List.length a -> firstn n (a ++ b) = a.
Proof. intros ->. rewrite firstn_app, Nat.sub_diag, firstn_all. apply app_nil_r. Qed.
Lemma skipn_ends (a b : list InputNode) n : n = List.length a -> skipn n (a ++ b) = b.
Proof. intros ->. rewrite skipn_app, Nat.sub_diag, skipn_all. reflexivity. Qed.
Lemma more_typed text vs ed : shows_typed doc p row i j text ed -> Forall (fun s => s <> []) vs ->
  exists ed', step env ed (OpInsertAtCaret vs) = Ok (ed', OutNone _) /\ shows_typed doc p row i j (text ++ vs) ed'.
Proof.
  intros H Hvs. destruct (C13_typing_partial _ env ed _ vs (proj1 (st_proper _ _ _ _ _ _ _ H)) (shows_caret _ _ H) (shows_matcher _ _ H)) as (ed'&Hs&R&Hc).
  cbn [mr_row mr_start mr_end] in R, Hc. rewrite Nat.min_id in R, Hc. rewrite Nat.max_id in R. exists ed'. split; [exact Hs|].
  pose proof (proper_nodes_replaced (Q := nonempty) R (st_proper _ _ _ _ _ _ _ H)) as Hp. destruct H as [R0 Hc0 Hp0]. destruct R as (row'&L1&L2&R).
  pose proof (replaced_get_old R) as G. rewrite (replaced_get_new R0) in G. injection G as <-. split.
  - pose proof (replaced_trans R0 R) as R2. rewrite !(app_assoc (firstn i row) (map Symbol text)) in R2.
    rewrite firstn_ends, skipn_ends in R2 by (rewrite app_length, firstn_length, map_length; lia). rewrite <- app_assoc in R2. rewrite map_app, <- app_assoc. exact R2.
  - rewrite Hc, app_length. do 2 f_equal. lia.
  - apply Hp. apply proper_symbols. rewrite Forall_forall in Hvs. exact Hvs.
Qed.
Lemma one_deleted text s ed : shows_typed doc p row i j (text ++ [s]) ed ->
  exists ed', step env ed (OpRemoveAtCaret RemoveLeft) = Ok (ed', OutNone _) /\ shows_typed doc p row i j text ed'.
Proof.
  intros H. assert (G : row_get (ed_input ed) p = Some (firstn i row ++ map Symbol (text ++ [s]) ++ skipn j row)) by exact (replaced_get_new (st_doc _ _ _ _ _ _ _ H)).
  destruct (C14_symbol_removed _ env ed _ RemoveLeft HLeft (i + List.length text) s (proj1 (st_proper _ _ _ _ _ _ _ H)) (st_caret _ _ _ _ _ _ _ H) (shows_matcher _ _ H) eq_refl) as (ed'&Hs&R&Hc).
  - cbn. rewrite app_length. cbn. lia.
  - unfold node_get. cbn [mp_row]. rewrite G. cbn. rewrite nth_error_app2 by (rewrite firstn_length; lia). rewrite firstn_length, Nat.min_l, map_app, <- app_assoc by lia.
    rewrite nth_error_app2 by (rewrite map_length; lia). rewrite map_length. replace (i + List.length text - i - List.length text) with 0 by lia. reflexivity.
  - exists ed'. split; [exact Hs|]. cbn [mp_row] in *. pose proof (proper_nodes_replaced (Q := nonempty) R (st_proper _ _ _ _ _ _ _ H) (proper_nil _)) as Hp.
    destruct H as [R0 Hc0 Hp0]. destruct R as (row'&L1&L2&R). pose proof (replaced_get_old R) as G'. rewrite G in G'. injection G' as <-. split; [|exact Hc|exact Hp].
    pose proof (replaced_trans R0 R) as R2. rewrite map_app, <- app_assoc in R2. cbn [map app] in R2.
    rewrite !(app_assoc (firstn i row) (map Symbol text)) in R2.
    rewrite firstn_ends in R2 by (rewrite app_length, firstn_length, map_length; lia).
    change (Symbol s :: skipn j row) with ([Symbol s] ++ skipn j row) in R2. rewrite app_assoc in R2.
    rewrite skipn_ends in R2 by (rewrite !app_length, firstn_length, map_length; cbn; lia). now rewrite <- app_assoc in R2.
Qed.
Lemma net_shown ops : forall text ed vs, shows_typed doc p row i j text ed -> Forall (fun s => s <> []) (all_typed ops) -> net text ops = Some vs ->
  exists ed', run env ed ops = Ok ed' /\ shows_typed doc p row i j vs ed'.
Proof.
  induction ops as [|op ops IH]; intros text ed vs H Hne Hn; [injection Hn as <-; now exists ed|]. destruct op; try discriminate Hn.
  - destruct m; try discriminate Hn. cbn [net] in Hn. destruct text as [|s0 text0] eqn:Et; [discriminate Hn|]. rewrite <- Et in *.
    assert (El : text = removelast text ++ [last text []]) by (apply app_removelast_last; rewrite Et; discriminate).
    rewrite El in H. destruct (one_deleted _ _ _ H) as (ed1&Hs&H1). destruct (IH _ _ _ H1 Hne Hn) as (ed'&Hr&H'). exists ed'. split; [|exact H']. cbn [run]. rewrite Hs. exact Hr.
  - cbn [net all_typed flat_map] in Hn, Hne. apply Forall_app in Hne as [Hv Hne]. destruct (more_typed _ _ _ H Hv) as (ed1&Hs&H1).
    destruct (IH _ _ _ H1 Hne Hn) as (ed'&Hr&H'). exists ed'. split; [|exact H']. cbn [run]. rewrite Hs. exact Hr.
Qed.
End Net.

(** Typing in portions and Backspace, beginning with something typed and never deleting more than what was typed: the selection is replaced
    by what remains, wherever it is and whatever is around it, and the caret is behind that. *)
Theorem C103_net : forall (SyntaxNode : Type) (env : Env SyntaxNode) ed m vs ops text, Forall ascii_rule (env_rules env) ->
  proper nonempty (ed_input ed) -> valid_caret (ed_input ed) (ed_caret ed) -> get_caret ed = Ok (MSelRow m) ->
  Forall (fun s => s <> []) (all_typed (OpInsertAtCaret vs :: ops)) -> net [] (OpInsertAtCaret vs :: ops) = Some text ->
  exists ed', run env ed (OpInsertAtCaret vs :: ops) = Ok ed' /\
    nodes_replaced (ed_input ed) (mr_row m) (Nat.min (mr_start m) (mr_end m)) (Nat.max (mr_start m) (mr_end m)) (map Symbol text) (ed_input ed') /\
    ed_caret ed' = collapsed (mkMinPos (mr_row m) (Nat.min (mr_start m) (mr_end m) + List.length text)).
Proof.
  intros SyntaxNode env ed m vs ops text Ha Hp Hv Hc Hne Hn. cbn [all_typed flat_map] in Hne. apply Forall_app in Hne as [Hvs Hne].
  destruct (C13_typing_partial _ env ed m vs (proj1 Hp) Hc (matcher_works env Ha ed Hp Hv)) as (ed1&Hs&R&Hc1).
  pose proof (proper_nodes_replaced (Q := nonempty) R Hp (proper_symbols (proj1 (Forall_forall _ _) Hvs))) as Hp1. destruct R as (row&L1&L2&R). cbn [net app] in Hn.
  destruct (net_shown env Ha (doc := ed_input ed) (p := mr_row m) (row := row) (i := Nat.min (mr_start m) (mr_end m)) (j := Nat.max (mr_start m) (mr_end m)) ltac:(lia) ops vs ed1 text) as (ed'&Hr&[R' Hc' _]); [split; auto|exact Hne|exact Hn|].
  exists ed'. split; [cbn [run]; rewrite Hs; exact Hr|]. split; [|exact Hc']. exists row. auto.
Qed.
Print Assumptions C103_net.
(** So it does not matter in which portions a text is typed, or which mistakes were corrected. *)
Theorem C103_same : forall (SyntaxNode : Type) (env : Env SyntaxNode) ed m vs ops vs' ops' text, Forall ascii_rule (env_rules env) ->
  proper nonempty (ed_input ed) -> valid_caret (ed_input ed) (ed_caret ed) -> get_caret ed = Ok (MSelRow m) ->
  Forall (fun s => s <> []) (all_typed (OpInsertAtCaret vs :: ops)) -> net [] (OpInsertAtCaret vs :: ops) = Some text ->
  Forall (fun s => s <> []) (all_typed (OpInsertAtCaret vs' :: ops')) -> net [] (OpInsertAtCaret vs' :: ops') = Some text ->
  exists ed1 ed2, run env ed (OpInsertAtCaret vs :: ops) = Ok ed1 /\ run env ed (OpInsertAtCaret vs' :: ops') = Ok ed2 /\ ed_input ed1 = ed_input ed2 /\ ed_caret ed1 = ed_caret ed2.
Proof.
  intros SyntaxNode env ed m vs ops vs' ops' text Ha Hp Hv Hc Hne Hn Hne' Hn'. destruct (C103_net _ env ed m vs ops text Ha Hp Hv Hc Hne Hn) as (ed1&H1&(row1&_&_&R1)&C1).
  destruct (C103_net _ env ed m vs' ops' text Ha Hp Hv Hc Hne' Hn') as (ed2&H2&(row2&_&_&R2)&C2). exists ed1, ed2. split; [exact H1|]. split; [exact H2|]. split; [|congruence].
  pose proof (replaced_get_old R1) as G1. rewrite (replaced_get_old R2) in G1. injection G1 as ->. exact (replaced_unique R1 R2).
Qed.
Print Assumptions C103_same.
(** If nothing is selected, then deleting everything that was typed restores the document and the caret. *)
Theorem C103_nothing : forall (SyntaxNode : Type) (env : Env SyntaxNode) ed q vs ops, Forall ascii_rule (env_rules env) ->
  proper nonempty (ed_input ed) -> valid_pos (ed_input ed) q -> ed_caret ed = collapsed q ->
  Forall (fun s => s <> []) (all_typed (OpInsertAtCaret vs :: ops)) -> net [] (OpInsertAtCaret vs :: ops) = Some [] ->
  exists ed', run env ed (OpInsertAtCaret vs :: ops) = Ok ed' /\ ed_input ed' = ed_input ed /\ ed_caret ed' = ed_caret ed.
Proof.
  intros SyntaxNode env ed q vs ops Ha Hp V Hc Hne Hn. assert (Hv : valid_caret (ed_input ed) (ed_caret ed)) by (rewrite Hc; split; exact V).
  destruct (C103_net _ env ed _ vs ops [] Ha Hp Hv (caret_of_position ed q (proj1 Hp) V Hc) Hne Hn) as (ed'&H&(row&_&_&R)&C). exists ed'. split; [exact H|].
  cbn [mr_row mr_start mr_end map app List.length] in R, C. rewrite Nat.min_id in R, C. rewrite Nat.max_id in R. rewrite firstn_skipn in R. split; [exact (replaced_refl R)|].
  rewrite C, Hc, Nat.add_0_r. now destruct q.
Qed.
Print Assumptions C103_nothing.
(** And a symbol that was deleted with Backspace can be typed again. *)
Theorem C103_again : forall (SyntaxNode : Type) (env : Env SyntaxNode) ed p i s, Forall ascii_rule (env_rules env) ->
  proper nonempty (ed_input ed) -> ed_caret ed = collapsed (mkMinPos p (S i)) -> node_get (ed_input ed) p i = Some (Symbol s) ->
  exists ed', run env ed [OpRemoveAtCaret RemoveLeft; OpInsertAtCaret [s]] = Ok ed' /\ ed_input ed' = ed_input ed /\ ed_caret ed' = ed_caret ed.
Proof.
  intros SyntaxNode env ed p i s Ha Hp Hc Hg. assert (G : exists row, row_get (ed_input ed) p = Some row /\ nth_error row i = Some (Symbol s)) by (unfold node_get in Hg; destruct (row_get (ed_input ed) p) as [row|]; [eauto|discriminate Hg]).
  destruct G as (row&G&En). assert (L : i < List.length row) by (apply nth_error_Some; congruence).
  assert (V : valid_pos (ed_input ed) (mkMinPos p (S i))) by (exists row; split; [exact G|exact L]).
  destruct (C14_symbol_removed _ env ed _ RemoveLeft HLeft i s (proj1 Hp) Hc) as (ed1&H1&R1&C1); [apply (matcher_works env Ha ed Hp); rewrite Hc; split; exact V|reflexivity|reflexivity|exact Hg|].
  cbn [mp_row] in R1, C1. pose proof (proper_nodes_replaced (Q := nonempty) R1 Hp (proper_nil _)) as Hp1. destruct R1 as (row1&_&_&R1). pose proof (replaced_get_old R1) as G1. rewrite G in G1. injection G1 as <-.
  assert (V1 : valid_pos (ed_input ed1) (mkMinPos p i)) by (eexists; split; [exact (replaced_get_new R1)|]; cbn; rewrite app_length, firstn_length; lia).
  assert (Hs : s <> []) by exact (proj2 Hp (PartSymbol s) (row_get_parts G (proj2 (in_row_parts _ _) (ex_intro _ _ (conj (nth_error_In _ _ En) (or_introl eq_refl)))))).
  destruct (C103_net _ env ed1 _ [s] [] [s] Ha Hp1 ltac:(rewrite C1; split; exact V1) (caret_of_position ed1 _ (proj1 Hp1) V1 C1)) as (ed'&H'&R2&C2); [repeat constructor; exact Hs|reflexivity|].
  exists ed'. split; [cbn [run]; rewrite H1; exact H'|]. cbn [mr_row mr_start mr_end mp_row mp_offset] in R2, C2. rewrite Nat.min_id in R2, C2. rewrite Nat.max_id in R2. split; [|rewrite C2, Hc; cbn; do 2 f_equal; lia].
  destruct R2 as (row2&_&_&R2). pose proof (replaced_get_new R1) as G2. rewrite (replaced_get_old R2) in G2. injection G2 as ->. cbn [app] in R1, R2.
  rewrite firstn_ends, skipn_ends in R2 by (rewrite firstn_length; lia). cbn [map app] in R2.
  assert (E : firstn i row ++ Symbol s :: skipn (S i) row = row).
  { clear - En. revert row En. induction i as [|i IH]; intros [|n row] En; try discriminate En; [injection En as ->; reflexivity|]. cbn. f_equal. now apply IH. }
  change (replaced p (firstn i row ++ skipn (S i) row) (firstn i row ++ Symbol s :: skipn (S i) row) (ed_input ed1) (ed_input ed')) in R2. rewrite E in R2. exact (replaced_refl (replaced_trans R1 R2)).
Qed.
Print Assumptions C103_again.
(** Over the selected numerator of a fraction: "s", "m", Backspace, "u", "mm" and Backspace leave "sum". *)
Example C103_case : forall cfg, let doc := [sym "x"; fraction (typed "ab") (typed "y")] in let p := [(1, 0)] in
  let ed := mkEditor doc None (mkMinCaret (mkMinPos p 2) (mkMinPos p 0)) None None undo_new in
  let ops := [OpInsertAtCaret [lit "m"]; OpRemoveAtCaret RemoveLeft; OpInsertAtCaret [lit "u"]; OpInsertAtCaret [lit "m"; lit "m"]; OpRemoveAtCaret RemoveLeft] in
  Forall ascii_rule (env_rules (default_env cfg)) /\ proper nonempty doc /\ valid_caret doc (ed_caret ed) /\ get_caret ed = Ok (MSelRow (mkMinRange p 2 0)) /\
  net [] (OpInsertAtCaret [lit "s"] :: ops) = Some [lit "s"; lit "u"; lit "m"] /\
  exists ed', run (default_env cfg) ed (OpInsertAtCaret [lit "s"] :: ops) = Ok ed' /\ ed_input ed' = [sym "x"; fraction (typed "sum") (typed "y")].
Proof.
  intros cfg. cbv zeta. split; [exact (proj1 C20_default_rules)|]. split; [split; [apply wf_rowb_ok; reflexivity|intros x Hx; vm_compute in Hx; repeat destruct Hx as [<-|Hx]; try destruct Hx; vm_compute; try discriminate; exact I]|]. split; [split; (eexists; split; [reflexivity|cbn; lia])|]. split; [vm_compute; reflexivity|].
  split; [reflexivity|]. both_profiles; (eexists; split; [vm_compute; reflexivity|reflexivity]).
Qed.
