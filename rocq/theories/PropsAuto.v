(** Properties of the autocomplete matcher and the popup (C24, C25, C26, C48, C49). *)
From Coq Require Import String Permutation Sorted.
From Verif Require Import Base Str Grid Node Focus Edit Caret Autocomplete Editor Rules Spec SpecAuto SpecMove BaseFacts
  TreeFacts AutoFacts MatchExact PopupFacts Samples.
Open Scope list_scope.
Open Scope nat_scope.

Definition typed (s : string) : list InputNode := map typed_symbol (lit s).

(** * C24: every match is a real one *)
(** Proved for all rules and inputs, except for the reported number of bytes, which
    is only right if the last symbol is a single byte (see [C24_refuted]). *)
Theorem C24_match_sound_partial : forall rule input caret min ms m, rule_matches rule input caret min = Ok ms -> In m ms ->
  exists syms rest, ends_in_symbols input caret syms /\ length syms = m_input_match_length m /\
    rule_parser rule = concat syms ++ rest /\ m_rule m = rule /\ 1 <= length syms /\ min <= length syms /\
    (is_complete_match m = true -> rest = []) /\
    (forall syms' last, syms = syms' ++ [last] -> byte_len last = 1 ->
       m_rule_match_length m = byte_len (concat syms) /\ (rest = [] -> is_complete_match m = true)).
Proof. exact match_sound. Qed.
Print Assumptions C24_match_sound_partial.

(** Exactly what is reported: one match for every way in which the symbols in front of the caret spell a beginning of the text,
    where empty symbols in front of them count as well, in the order of their lengths. The number of bytes that is
    reported is that of all symbols but the last one, plus one. *)
Theorem C24_exact : forall rule input caret min ms, rule_matches rule input caret min = Ok ms ->
  (forall m, In m ms <-> exists before syms last rest, firstn caret input = before ++ map Symbol (syms ++ [last]) /\ last <> [] /\
     (forall b, before <> b ++ [Symbol []]) /\ rule_parser rule = concat (syms ++ [last]) ++ rest /\ min <= length (syms ++ [last]) /\
     m = mkMatch rule (byte_len (concat syms) + 1) (length (syms ++ [last]))) /\
  StronglySorted (fun a b => m_rule_match_length a < m_rule_match_length b) ms.
Proof.
  intros rule input caret min ms H. split; [|exact (rule_matches_sorted H)]. intros m. rewrite (proj2 (rule_matches_inv H) m).
  split; intros (before & syms & last & rest & H'); exists before, syms, last, rest; rewrite app_length, concat_app in *; cbn [concat length] in *;
    rewrite app_nil_r, <- app_assoc in *; tauto.
Qed.
Print Assumptions C24_exact.
(** Which matches are taken for complete: the last symbol has one byte and nothing of the text is missing. *)
Theorem C24_complete : forall rule input caret min ms m, rule_matches rule input caret min = Ok ms -> In m ms ->
  (is_complete_match m = true <-> exists before syms last, firstn caret input = before ++ map Symbol (syms ++ [last]) /\
     length (syms ++ [last]) = m_input_match_length m /\ rule_parser rule = concat (syms ++ [last]) /\ byte_len last = 1).
Proof.
  intros rule input caret min ms m H Hm. destruct (rule_matches_inv H) as [_ Hi]. apply Hi in Hm as (before & syms & last & rest & Hf & Hp & Hmin & -> & Hl & Hb).
  unfold is_complete_match. cbn [m_rule_match_length m_rule m_input_match_length]. rewrite Hp, !byte_len_app, Nat.eqb_eq. split.
  - intros E. apply byte_len_pos in Hl. assert (rest = []) by (apply byte_len_0; lia). subst rest. change (byte_len []) with 0 in E. rewrite app_nil_r in Hp.
    exists before, syms, last. rewrite app_length, concat_app. cbn [concat length]. rewrite app_nil_r. split; [exact Hf|]. split; [reflexivity|]. split; [reflexivity|lia].
  - intros (before' & syms' & last' & Hf' & Hlen & Hc & E). rewrite Hf in Hf'. rewrite !map_app, !app_assoc in Hf'. apply app_inj_tail in Hf' as [Hf' El].
    injection El as <-. rewrite !app_length in Hlen. cbn [length] in Hlen. assert (length syms' = length syms) by (unfold str in *; lia).
    assert (Es : syms' = syms).
    { assert (length before = length before') by (apply (f_equal (@length _)) in Hf'; rewrite !app_length, !map_length in Hf'; unfold str in *; lia).
      apply (f_equal (skipn (length before))) in Hf'. rewrite skipn_app, Nat.sub_diag, skipn_all in Hf'. rewrite H1, skipn_app, Nat.sub_diag, skipn_all in Hf'.
      cbn [skipn app] in Hf'. symmetry in Hf'.
      clear -Hf'. revert syms Hf'. induction syms' as [|a l IH]; intros [|b l'] E; cbn [map] in E; [reflexivity|discriminate E|discriminate E|]. injection E as -> E. f_equal. auto. }
    subst syms'. rewrite concat_app in Hc. cbn [concat] in Hc. rewrite app_nil_r in Hc. apply (f_equal byte_len) in Hc. rewrite !byte_len_app in Hc. lia.
Qed.
Print Assumptions C24_complete.

(** The symbols "s" and "um" are the whole text "sum", but the match claims two bytes
    and is not complete. *)
Theorem C24_refuted : exists rule input caret ms m,
  rule_matches rule input caret 2 = Ok ms /\ In m ms /\
  ends_in_symbols input caret [lit "s"; lit "um"] /\ rule_parser rule = concat [lit "s"; lit "um"] /\
  m_input_match_length m = 2 /\
  m_rule_match_length m <> byte_len (concat [lit "s"; lit "um"]) /\ is_complete_match m = false.
Proof.
  exists (mkRule (lit "sum") [sym "S"]), [sym "x"; sym "s"; sym "um"], 3. do 2 eexists.
  split; [vm_compute; reflexivity|]. split; [left; reflexivity|]. split; [exists [sym "x"]; vm_compute; reflexivity|].
  split; [vm_compute; reflexivity|]. split; [reflexivity|]. split; [vm_compute; lia|]. vm_compute. reflexivity.
Qed.
Print Assumptions C24_refuted.

(** The numbers of bytes are those of UTF-8. *)
Theorem C24_bytes : forall s, byte_len s = length (flat_map utf8 s).
Proof.
  intros s. induction s as [|c s IH]; [reflexivity|]. rewrite byte_len_cons, IH. cbn [flat_map]. rewrite app_length. f_equal. unfold utf8, utf8_len.
  destruct (c <? 128)%N; [reflexivity|]. destruct (c <? 2048)%N; [reflexivity|]. destruct (c <? 65536)%N; reflexivity.
Qed.
Print Assumptions C24_bytes.
(** "a", "ä", the sign of a sum and an emoji *)
Example C24_bytes_case : map utf8 [97; 228; 8721; 128512]%N = [[97]; [195; 164]; [226; 136; 145]; [240; 159; 152; 128]]%N.
Proof. reflexivity. Qed.

(** All matches of a rule set are matches of its rules. *)
Theorem C24_rule_set : forall rules input caret min ms, rules_matches rules input caret min = Ok ms ->
  forall m, In m ms <-> exists rule ms', In rule rules /\ rule_matches rule input caret min = Ok ms' /\ In m ms'.
Proof. exact rules_matches_inv. Qed.
Print Assumptions C24_rule_set.

(** In front of the caret are an empty symbol, "s" and "um": three symbols and two bytes, not complete. *)
Example C24_exact_case : rule_matches (mkRule (lit "sum") []) [sym "x"; Symbol []; sym "s"; sym "um"] 4 1 = Ok [mkMatch (mkRule (lit "sum") []) 2 3] /\
  rule_matches (mkRule (lit "aaa") []) (typed "aaaa") 4 1 = Ok (map (fun k => mkMatch (mkRule (lit "aaa") []) k k) [1; 2; 3]).
Proof. split; vm_compute; reflexivity. Qed.
(** "ababab" is matched by its prefixes "ab" and "abab". *)
Example C24_case :
  rule_matches (mkRule (lit "ababab") []) (typed "xabab" ++ [fraction [] []]) 5 2 =
  Ok [mkMatch (mkRule (lit "ababab") []) 2 2; mkMatch (mkRule (lit "ababab") []) 4 4].
Proof. vm_compute. reflexivity. Qed.

(** * C25: no match is missed *)
Theorem C25_match_complete_partial : forall rule input caret min before syms rest,
  caret <= length input -> firstn caret input = before ++ map Symbol syms -> syms <> [] ->
  rule_parser rule = concat syms ++ rest -> min <= length syms ->
  ascii_start (last syms []) -> (forall b', before <> b' ++ [Symbol []]) ->
  exists ms m, rule_matches rule input caret min = Ok ms /\ In m ms /\ m_rule m = rule /\ m_input_match_length m = length syms.
Proof. exact match_complete. Qed.
Print Assumptions C25_match_complete_partial.

(** For rule sets written in ASCII, such as the default one, the only condition left
    is that there is no empty symbol in front of the caret. *)
Theorem C25_ascii_rules_partial : forall rule rules input caret min before syms rest,
  Forall ascii_rule rules -> In rule rules ->
  caret <= length input -> firstn caret input = before ++ map Symbol syms -> syms <> [] ->
  rule_parser rule = concat syms ++ rest -> min <= length syms ->
  (forall s, In s syms -> s <> []) -> (forall b', before <> b' ++ [Symbol []]) ->
  exists ms m, rules_matches rules input caret min = Ok ms /\ In m ms /\ m_rule m = rule /\ m_input_match_length m = length syms.
Proof. exact ascii_match_complete. Qed.
Print Assumptions C25_ascii_rules_partial.
Theorem C25_ascii_rules_total_partial : forall rules input caret min, Forall ascii_rule rules -> caret <= length input ->
  (forall b, firstn caret input <> b ++ [Symbol []]) ->
  exists ms, rules_matches rules input caret min = Ok ms.
Proof. exact ascii_rules_total. Qed.
Print Assumptions C25_ascii_rules_total_partial.
Theorem C25_default_rules_ascii : Forall ascii_rule default_rules.
Proof. exact default_rules_ascii. Qed.
Print Assumptions C25_default_rules_ascii.

(** Exactly when the matcher does not panic: the rule has a text, the caret is in the row, and the node in front of the caret is no symbol, one that begins
    with an ASCII character, or one that is not empty and does not occur in the text. *)
Theorem C25_panics_exact : forall rule input caret min,
  (exists ms, rule_matches rule input caret min = Ok ms) <->
  rule_parser rule <> [] /\ caret <= length input /\
  forall before s, firstn caret input = before ++ [Symbol s] -> ascii_start s \/ (s <> [] /\ forall a b, rule_parser rule <> a ++ s ++ b).
Proof.
  intros rule input caret min. rewrite rule_matches_exact. split; intros (Hr & Hc & H); (split; [exact Hr|]); (split; [exact Hc|]).
  - intros before s Hs. exact (H _ _ Hs).
  - intros before [v g|s] Hn; [exact I|exact (H _ _ Hn)].
Qed.
Print Assumptions C25_panics_exact.
(** All cases occur: no symbol, an ASCII symbol, one that is not in the text; and an empty one and a wide one, which make it panic. *)
Example C25_panics_case : let matches s := rule_matches (mkRule [97; 8734]%N []) [Symbol s] 1 1 in
  (exists ms, rule_matches (mkRule [97%N] []) [fraction [] []] 1 1 = Ok ms) /\ (exists ms, matches [97%N] = Ok ms) /\ (exists ms, matches [8721%N] = Ok ms) /\
  (exists k, matches [] = Panic k) /\ (exists k, matches [8734%N] = Panic k).
Proof. cbv zeta. repeat split; eexists; vm_compute; reflexivity. Qed.

(** A rule text with a character of several bytes: the matcher slices inside of it. *)
Theorem C25_refuted : exists rule input caret syms rest,
  caret <= length input /\ ends_in_symbols input caret syms /\ syms <> [] /\ (forall s, In s syms -> s <> []) /\
  rule_parser rule = concat syms ++ rest /\ exists k, rule_matches rule input caret 1 = Panic k.
Proof.
  exists (mkRule [8734%N; 120%N] []), [Symbol [8734%N]], 1, [[8734%N]], [120%N].
  split; [auto|]. split; [now exists []|]. split; [discriminate|]. split; [intros s [<-|[]]; discriminate|].
  split; [reflexivity|]. eexists. vm_compute. reflexivity.
Qed.
Print Assumptions C25_refuted.
(** An empty symbol in front of the matched ones is counted as part of the match. *)
Theorem C25_empty_symbol_refuted : exists rule input caret syms rest ms,
  caret <= length input /\ ends_in_symbols input caret syms /\ syms <> [] /\ (forall s, In s syms -> s <> []) /\
  rule_parser rule = concat syms ++ rest /\ rule_matches rule input caret 1 = Ok ms /\
  forall m, In m ms -> m_input_match_length m <> length syms.
Proof.
  exists (mkRule (lit "su") []), [Symbol []; sym "s"; sym "u"], 3, [lit "s"; lit "u"], [].
  eexists. split; [auto|]. split; [now exists [Symbol []]|]. split; [discriminate|].
  split; [intros s [<-|[<-|[]]]; discriminate|]. split; [reflexivity|]. split; [vm_compute; reflexivity|].
  intros m [<-|[]]. vm_compute. lia.
Qed.
Print Assumptions C25_empty_symbol_refuted.
(** An empty symbol right before the caret makes the matcher panic for every rule set. *)
Theorem C25_empty_needle_refuted : exists input caret, caret <= length input /\
  exists k, rules_matches default_rules input caret 2 = Panic k.
Proof. exists [Symbol []], 1. split; [auto|]. eexists. vm_compute. reflexivity. Qed.
Print Assumptions C25_empty_needle_refuted.

Example C25_case : exists before syms rest,
  let input := typed "2+limin" ++ [root [] []] in
  firstn 7 input = before ++ map Symbol syms /\ lit "liminf" = concat syms ++ rest /\
  length syms = 5 /\ ascii_start (last syms []) /\ (forall b', before <> b' ++ [Symbol []]).
Proof.
  exists (typed "2+"), (map (fun c => [c]) (lit "limin")), (lit "f"). cbv zeta.
  split; [vm_compute; reflexivity|]. split; [vm_compute; reflexivity|]. split; [reflexivity|].
  split; [exists 110%N, []; split; vm_compute; reflexivity|].
  intros b' H. change (typed "2+") with ([typed_symbol 50] ++ [typed_symbol 43])%N in H. apply app_inj_tail in H as [_ H]. discriminate.
Qed.

(** * C26: the popup *)
Theorem C26_popup_shown : forall current ms p current' r, state_get_autocomplete current ms p = Ok (current', Some r) ->
  Permutation (ar_matches r) ms /\ StronglySorted by_length (ar_matches r) /\
  (forall k, filter (of_length k) (ar_matches r) = filter (of_length k) ms) /\ ar_position r = p /\
  exists m, nth_error (ar_matches r) (ar_selected r) = Some m /\ current' = Some (m_rule m) /\
    (forall rule, current = Some rule -> (exists m', In m' ms /\ m_rule m' = rule) ->
       m_rule m = rule /\ forall j m', j < ar_selected r -> nth_error (ar_matches r) j = Some m' -> m_rule m' <> rule) /\
    ((forall rule, current = Some rule -> forall m', In m' ms -> m_rule m' <> rule) -> ar_selected r = 0).
Proof. exact popup_shown. Qed.
Print Assumptions C26_popup_shown.
Theorem C26_popup_total : forall current ms p, exists current' r, state_get_autocomplete current ms p = Ok (current', r) /\
  (r = None <-> ms = []).
Proof. exact popup_total. Qed.
Print Assumptions C26_popup_total.
Theorem C26_move_selection : forall r d, ar_selected r < length (ar_matches r) ->
  ar_matches (move_selection r d) = ar_matches r /\ ar_position (move_selection r d) = ar_position r /\
  ar_selected (move_selection r d) < length (ar_matches r) /\
  ar_selected (move_selection r d) =
    match d with VUp => Nat.pred (ar_selected r) | VDown => Nat.min (S (ar_selected r)) (Nat.pred (length (ar_matches r))) end.
Proof. exact move_selection_spec. Qed.
Print Assumptions C26_move_selection.

(** "lim": three matches, in the order of the rule set; the remembered rule stays selected. *)
Definition texts (r : option AutocompleteResults) : list str :=
  match r with Some r => map (fun m => rule_parser (m_rule m)) (ar_matches r) | None => [] end.
Definition selected (r : option AutocompleteResults) : option nat := option_map ar_selected r.
Example C26_case :
  exists ms, rules_matches default_rules (typed "lim") 3 2 = Ok ms /\
  (match state_get_autocomplete None ms (here 3) with
   | Ok (c, r) => (option_map rule_parser c, selected r, texts r)
   | Panic _ => (None, None, []) end) = (Some (lit "liminf"), Some 0, [lit "liminf"; lit "limsup"; lit "lim"]) /\
  (match state_get_autocomplete (Some (mkRule (lit "lim") (typed "lim"))) ms (here 3) with
   | Ok (c, r) => (option_map rule_parser c, selected r, texts r)
   | Panic _ => (None, None, []) end) = (Some (lit "lim"), Some 2, [lit "liminf"; lit "limsup"; lit "lim"]).
Proof. eexists. split; [vm_compute; reflexivity|]. split; vm_compute; reflexivity. Qed.

(** * C48: Up and Down reach every entry of the popup *)
(** Proved if no rule occurs twice in the popup. *)
Theorem C48_reach_every_entry_partial : forall (SyntaxNode : Type) (env : Env SyntaxNode) d k ed ed1 r,
  get_autocomplete env ed = Ok (ed1, Some r) -> NoDup (map m_rule (ar_matches r)) ->
  exists ed2 ed3 r', run env ed (repeat (OpMoveInAutocomplete d) k) = Ok ed2 /\
    get_autocomplete env ed2 = Ok (ed3, Some r') /\ ar_matches r' = ar_matches r /\
    ar_selected r' = match d with VUp => ar_selected r - k
                                | VDown => Nat.min (ar_selected r + k) (length (ar_matches r) - 1) end.
Proof. exact @move_steps. Qed.
Print Assumptions C48_reach_every_entry_partial.

Definition sample_env (rules : list AutocompleteRule) : Env unit :=
  mkEnv debug_profile rules (fun _ => Ok tt) (fun _ => []) (fun _ => None).
Definition editor_with (doc : InputRow) (p : MinPos) : MathEditor unit :=
  mkEditor doc None (collapsed p) None None undo_new.

(** Typing "infin" with the default rules: the rule "infinity" matches both "in" and
    "infin".  Down from the first entry of "infinity" goes to the second one, but only
    the rule is remembered, so the first one is selected again. *)
Theorem C48_refuted : exists ed ed1 r,
  get_autocomplete (sample_env default_rules) ed = Ok (ed1, Some r) /\
  selected (Some r) = Some 0 /\ length (ar_matches r) = 4 /\
  forall k, exists ed2 ed3 r', run (sample_env default_rules) ed (repeat (OpMoveInAutocomplete VDown) k) = Ok ed2 /\
    get_autocomplete (sample_env default_rules) ed2 = Ok (ed3, Some r') /\ ar_selected r' <> 3.
Proof.
  exists (editor_with (typed "infin") (here 5)). do 2 eexists.
  split; [vm_compute; reflexivity|]. split; [vm_compute; reflexivity|]. split; [vm_compute; reflexivity|].
  set (ed0 := editor_with (typed "infin") (here 5)).
  assert (H : forall k a, In a [None; Some (mkRule (lit "integrate") [Symbol [8747%N]]);
                                Some (mkRule (lit "integral") [Symbol [8747%N]]); Some (mkRule (lit "infinity") [Symbol [8734%N]])] ->
    exists ed2 ed3 r', run (sample_env default_rules) (set_autocomplete ed0 a) (repeat (OpMoveInAutocomplete VDown) k) = Ok ed2 /\
      get_autocomplete (sample_env default_rules) ed2 = Ok (ed3, Some r') /\ ar_selected r' <> 3).
  { induction k as [|k IH]; intros a Ha.
    - repeat (destruct Ha as [<-|Ha]; [do 3 eexists; split; [reflexivity|]; split; [vm_compute; reflexivity|vm_compute; lia]|]). destruct Ha.
    - cbn [repeat run]. 
      assert (Hs : exists b, step (sample_env default_rules) (set_autocomplete ed0 a) (OpMoveInAutocomplete VDown) =
                  Ok (set_autocomplete ed0 b, OutNone unit) /\
                  In b [None; Some (mkRule (lit "integrate") [Symbol [8747%N]]);
                        Some (mkRule (lit "integral") [Symbol [8747%N]]); Some (mkRule (lit "infinity") [Symbol [8734%N]])]).
      { destruct Ha as [<-|[<-|[<-|[<-|[]]]]].
        - exists (Some (mkRule (lit "integral") [Symbol [8747%N]])). split; [vm_compute; reflexivity|]. cbn [In]. tauto.
        - exists (Some (mkRule (lit "integral") [Symbol [8747%N]])). split; [vm_compute; reflexivity|]. cbn [In]. tauto.
        - exists (Some (mkRule (lit "infinity") [Symbol [8734%N]])). split; [vm_compute; reflexivity|]. cbn [In]. tauto.
        - exists (Some (mkRule (lit "infinity") [Symbol [8734%N]])). split; [vm_compute; reflexivity|]. cbn [In]. tauto. }
      destruct Hs as (b&Hs&Hb). rewrite Hs. cbn [bind]. apply IH. exact Hb. }
  intros k. exact (H k None (or_introl eq_refl)).
Qed.
Print Assumptions C48_refuted.

Example C48_case : exists ed1 r, get_autocomplete (sample_env default_rules) (editor_with (typed "xlim") (here 4)) = Ok (ed1, Some r) /\
  NoDup (map m_rule (ar_matches r)) /\ length (ar_matches r) = 3.
Proof.
  do 2 eexists. split; [vm_compute; reflexivity|]. split; [|vm_compute; reflexivity].
  repeat constructor; vm_compute; intuition discriminate.
Qed.

(** * C49: a completely typed rule is offered *)
(** Proved for rules of at least two characters. *)
Theorem C49_typed_rule_offered_partial : forall (SyntaxNode : Type) (env : Env SyntaxNode) ed q row before rule,
  wf_row (ed_input ed) -> ed_caret ed = collapsed q -> row_get (ed_input ed) (mp_row q) = Some row -> mp_offset q <= length row ->
  Forall ascii_rule (env_rules env) -> In rule (env_rules env) -> 2 <= length (rule_parser rule) ->
  firstn (mp_offset q) row = before ++ map typed_symbol (rule_parser rule) -> (forall b, before <> b ++ [Symbol []]) ->
  exists ed' r m, get_autocomplete env ed = Ok (ed', Some r) /\ In m (ar_matches r) /\ m_rule m = rule /\
    m_input_match_length m = length (rule_parser rule) /\ is_complete_match m = true.
Proof. exact @typed_popup. Qed.
Print Assumptions C49_typed_rule_offered_partial.

(** The rules "^", "_" and "/" of the default rule set are never offered. *)
Theorem C49_refuted : exists rule ed, In rule default_rules /\ ed_input ed = map typed_symbol (rule_parser rule) /\
  ed_caret ed = collapsed (here (length (rule_parser rule))) /\
  get_autocomplete (sample_env default_rules) ed = Ok (ed, None).
Proof.
  exists (mkRule (lit "/") [fraction [] []]), (editor_with (typed "/") (here 1)).
  split; [vm_compute; tauto|]. split; [reflexivity|]. split; [reflexivity|]. vm_compute. reflexivity.
Qed.
Print Assumptions C49_refuted.

Example C49_case : exists before row rule, let ed := editor_with [sym "a"; fraction [sym "b"] (typed "x>=")] (mkMinPos [(1, 1)] 3) in
  row_get (ed_input ed) [(1, 1)] = Some row /\ In rule default_rules /\
  firstn 3 row = before ++ map typed_symbol (rule_parser rule) /\ 2 <= length (rule_parser rule) /\
  (forall b, before <> b ++ [Symbol []]) /\ wf_row (ed_input ed).
Proof.
  exists [sym "x"], (typed "x>="), (mkRule (lit ">=") [Symbol [8805%N]]). cbv zeta.
  split; [vm_compute; reflexivity|]. split; [vm_compute; tauto|]. split; [vm_compute; reflexivity|]. split; [vm_compute; lia|].
  split; [|apply wf_rowb_ok; vm_compute; reflexivity].
  intros b H. change [sym "x"] with ([] ++ [sym "x"]) in H. apply app_inj_tail in H as [_ H]. discriminate.
Qed.
