(** Exactly which views show a rectangle, which corners are those of it, and what is suggested (C23, C38, C49). *)
From Coq Require Import String.
From Verif Require Import Base Str Grid Node Focus Edit Caret Autocomplete Editor Rules Spec SpecAuto SpecMove SpecExact BaseFacts
  TreeFacts EditFacts MoveProofs AutoFacts PopupFacts ExactFacts Samples PropsAuto.
Open Scope list_scope.
Open Scope nat_scope.

(** * C23: the corners are those of the rectangle exactly if the columns are ordered like the cells *)
Theorem C23_exact : forall doc a b p i g j j', wf_row doc -> valid_pos doc a -> valid_pos doc b -> in_table_cells doc a b p i g j j' ->
  exists s e r, pos_from_minimal (from_root doc) a = Ok s /\ pos_from_minimal (from_root doc) b = Ok e /\ selection_from_positions doc s e = Ok (SelGrid r) /\
    let w := gwidth g in
    (gr_top_left r = Ok (Nat.min (j mod w) (j' mod w), Nat.min (j / w) (j' / w)) /\
     gr_bottom_right r = Ok (Some (Nat.max (j mod w) (j' mod w), Nat.max (j / w) (j' / w))) <->
     Nat.min j j' mod w <= Nat.max j j' mod w).
Proof.
  intros doc a b p i g j j' Hwf Ha Hb H. destruct (grid_selection_corners Hwf Ha Hb H) as (s&e&r&H1&H2&H3&_&H4). cbv zeta in H4. destruct H4 as (T&B&O).
  exists s, e, r. repeat (split; [assumption|]). cbv zeta. split; [|exact O]. intros [T' B']. rewrite T in T'. injection T' as T1 T2. rewrite T1.
  rewrite B in B'. injection B' as B1 B2. rewrite B1. lia.
Qed.
Print Assumptions C23_exact.
(** Both diagonals of a table with two columns *)
Example C23_exact_case : in_table_cells sample (mkMinPos [(1, 1); (0, 1)] 0) (mkMinPos [(1, 1); (0, 2)] 0) [(1, 1)] 0 (mkGrid [[sym "x"]; []; [sym "y"; sub [sym "1"]]; [sym "z"]] 2) 1 2 /\
  in_table_cells sample (mkMinPos [(1, 1); (0, 0)] 0) (mkMinPos [(1, 1); (0, 3)] 0) [(1, 1)] 0 (mkGrid [[sym "x"]; []; [sym "y"; sub [sym "1"]]; [sym "z"]] 2) 0 3.
Proof. repeat split; try discriminate; eexists; reflexivity. Qed.

(** * C38: a view shows a rectangle exactly if it consists of whole lines *)
(** The first of the two cells is at the beginning of a line and the last one at the end of a line. Otherwise the size is wrong. *)
Theorem C38_exact : forall T (g : GridVec T) x1 y1 x2 y2, 0 < gwidth g -> x1 < gwidth g -> x2 < gwidth g ->
  y1 < List.length (gvalues g) / gwidth g -> y2 < List.length (gvalues g) / gwidth g -> y1 < y2 \/ y1 = y2 /\ x1 <= x2 ->
  exists r, rect_from_indices_inclusive (mkIndex2D x1 y1 (gwidth g)) (mkIndex2D x2 y2 (gwidth g)) g = Ok r /\
    rect_from_indices_inclusive (mkIndex2D x2 y2 (gwidth g)) (mkIndex2D x1 y1 (gwidth g)) g = Ok r /\
    rect_size r = Ok (gwidth g, (if x2 =? gwidth g - 1 then y2 + 1 else y2) - y1) /\
    (shows_rectangle g r x1 y1 x2 y2 <-> x1 = 0 /\ x2 = gwidth g - 1).
Proof.
  intros T g x1 y1 x2 y2 Hw H1 H2 H3 H4 Ho. assert (Hle : y1 * gwidth g + x1 <= y2 * gwidth g + x2) by nia.
  destruct (rect_of_cells Hw H1 H2 H3 H4 Hle) as [E1 E2]. eexists. split; [exact E1|]. split; [exact E2|].
  split; [exact (rect_of_cells_size _ _ Hw H1 H2)|exact (rect_shows Hw H1 H2 Hle)].
Qed.
Print Assumptions C38_exact.
(** Two lines of three columns, and without the last cell *)
Example C38_exact_case : let g := mkGrid [10; 11; 12; 13; 14; 15; 16; 17; 18] 3 in
  (exists r, rect_from_indices_inclusive (mkIndex2D 0 1 3) (mkIndex2D 2 2 3) g = Ok r /\ shows_rectangle g r 0 1 2 2) /\
  (exists r, rect_from_indices_inclusive (mkIndex2D 0 1 3) (mkIndex2D 1 2 3) g = Ok r /\ rect_size r = Ok (3, 1) /\ ~ shows_rectangle g r 0 1 1 2).
Proof.
  cbv zeta. split.
  - destruct (C38_exact _ (mkGrid [10; 11; 12; 13; 14; 15; 16; 17; 18] 3) 0 1 2 2) as (r&E&_&_&S); try (cbn; lia). exists r. split; [exact E|]. apply S. split; reflexivity.
  - destruct (C38_exact _ (mkGrid [10; 11; 12; 13; 14; 15; 16; 17; 18] 3) 0 1 1 2) as (r&E&_&Z&S); try (cbn; lia). exists r. split; [exact E|]. split; [exact Z|]. intros H. apply S in H as [_ H]. discriminate H.
Qed.

(** * C49: what is suggested *)
(** The list contains exactly the matches of rules with at least two symbols in front of the caret. *)
Theorem C49_popup : forall (SyntaxNode : Type) (env : Env SyntaxNode) ed q row ed' res, wf_row (ed_input ed) -> ed_caret ed = collapsed q ->
  row_get (ed_input ed) (mp_row q) = Some row -> mp_offset q <= List.length row -> get_autocomplete env ed = Ok (ed', res) ->
  forall m, In m (match res with Some r => ar_matches r | None => [] end) <->
    exists rule, In rule (env_rules env) /\ matches_end rule (firstn (mp_offset q) row) m /\ 2 <= m_input_match_length m.
Proof. exact popup_content. Qed.
Print Assumptions C49_popup.
(** So a rule that was typed is offered exactly if it has at least two characters. *)
Theorem C49_exact : forall (SyntaxNode : Type) (env : Env SyntaxNode) ed q row before rule,
  wf_row (ed_input ed) -> ed_caret ed = collapsed q -> row_get (ed_input ed) (mp_row q) = Some row -> mp_offset q <= List.length row ->
  Forall ascii_rule (env_rules env) -> In rule (env_rules env) ->
  firstn (mp_offset q) row = before ++ map typed_symbol (rule_parser rule) -> (forall b, before <> b ++ [Symbol []]) ->
  ((exists ed' r m, get_autocomplete env ed = Ok (ed', Some r) /\ In m (ar_matches r) /\ m_rule m = rule) <-> 2 <= List.length (rule_parser rule)).
Proof.
  intros SyntaxNode env ed q row before rule Hwf Hc Hrow Ho Hr Hin Hf Hb. split.
  - intros (ed'&r&m&H&Hm&Er). apply (popup_content Hwf Hc Hrow Ho H m) in Hm as (rule'&_&(before'&syms&last&rest&Hf'&Hl&Hb'&Hp&->)&H2). cbn [m_rule m_input_match_length] in *. subst rule'.
    assert (Hn : rule_parser rule <> []) by (rewrite Forall_forall in Hr; exact (proj1 (Hr _ Hin))).
    destruct (rule_parser rule) as [|c [|d text]] eqn:Ep; [congruence| |cbn; lia]. exfalso.
    rewrite Hf in Hf'. change (map typed_symbol [c]) with [typed_symbol c] in Hf'. rewrite map_app in Hf'. cbn [map] in Hf'. rewrite app_assoc in Hf'. apply app_inj_tail in Hf' as [E1 E2].
    destruct (@exists_last _ syms) as (syms'&s&->); [intros ->; cbn in H2; lia|]. rewrite map_app, app_assoc in E1. cbn [map] in E1.
    destruct s as [|x s]; [exact (Hb (before' ++ map Symbol syms') E1)|]. rewrite !concat_app in Hp. cbn [concat] in Hp. rewrite !app_nil_r in Hp. apply (f_equal (@List.length _)) in Hp. rewrite !app_length in Hp. cbn [List.length] in Hp.
    destruct last; [congruence|]. cbn [List.length] in Hp. lia.
  - intros H2. destruct (typed_popup Hwf Hc Hrow Ho Hr Hin H2 Hf Hb) as (ed'&r&m&H&Hm&E&_). exists ed', r, m. split; [exact H|]. split; assumption.
Qed.
Print Assumptions C49_exact.
(** "/" behind an "a", which is not offered *)
Example C49_exact_case : let ed := editor_with (typed "a/") (here 2) in exists rule, In rule default_rules /\ rule_parser rule = lit "/" /\
  firstn 2 (typed "a/") = typed "a" ++ map typed_symbol (rule_parser rule) /\ wf_row (ed_input ed) /\ (forall b, typed "a" <> b ++ [Symbol []]).
Proof.
  exists (mkRule (lit "/") [fraction [] []]). split; [vm_compute; tauto|]. split; [reflexivity|]. split; [reflexivity|]. split; [apply wf_rowb_ok; vm_compute; reflexivity|].
  intros b H. change (typed "a") with ([] ++ [typed_symbol 97%N]) in H. apply app_inj_tail in H as [_ H]. discriminate H.
Qed.
