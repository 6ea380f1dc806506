(** Copy and paste. *)
From Coq Require Import String.
From Verif Require Import Base Str Grid Node Focus Edit Caret Autocomplete Editor Print Json Spec SpecAuto SpecEditor SpecMove SpecSafety SpecText BaseFacts
  TreeFacts OrderFacts EditFacts MoveFacts PrintFacts JsonFacts AutoFacts EditorFacts OpFacts SpliceFacts TypingFacts SafetyFacts.
Open Scope list_scope.
Open Scope nat_scope.
Set Implicit Arguments.
Unset Strict Implicit.

(** ** Values of nodes *)
Lemma list_max_in l x : In x l -> x <= list_max l.
Proof. intros H. pose proof (proj1 (list_max_le l (list_max l)) (Nat.le_refl _)) as F. rewrite Forall_forall in F. auto. Qed.
Lemma list_max_bound A (f : A -> nat) l k : (forall x, In x l -> f x <= k) -> list_max (map f l) <= k.
Proof. intros H. apply list_max_le, Forall_forall. intros y Hy. apply in_map_iff in Hy as (x&<-&Hx). auto. Qed.
Lemma list_max_map_in A (f : A -> nat) l x : In x l -> f x <= list_max (map f l).
Proof. intros H. apply list_max_in, in_map, H. Qed.
Lemma list_max_attained A (f : A -> nat) l : l <> [] -> exists x, In x l /\ list_max (map f l) = f x.
Proof.
  induction l as [|x l IH]; intros H; [congruence|]. destruct l as [|y l].
  - exists x. split; [now left|]. cbn. lia.
  - destruct IH as (z&Hz&E); [discriminate|]. change (list_max (map f (x :: y :: l))) with (Nat.max (f x) (list_max (map f (y :: l)))). rewrite E.
    destruct (Nat.max_spec (f x) (f z)) as [[_ ->]|[_ ->]]; [exists z|exists x]; split; auto; [now right|now left].
Qed.

Lemma container_depth v cells w : jdepth (enc_node (Container v (mkGrid cells w))) =
  4 + list_max (map (fun cell => 2 + list_max (map (fun n => jdepth (enc_node n)) cell)) cells).
Proof.
  cbn [enc_node jdepth map list_max fold_right snd]. rewrite !map_map. unfold enc_row_with. cbn [jdepth map list_max fold_right snd].
  
  replace (map _ cells) with (map (fun cell => 2 + list_max (map (fun n => jdepth (enc_node n)) cell)) cells).
  - cbn [Nat.max]. reflexivity.
  - apply map_ext. intros cell. now rewrite ?Nat.max_0_r, map_map.
Qed.
Lemma node_depth_le n : jdepth (enc_node n) <= 6 * nesting n + 1.
Proof.
  induction n as [s|v cells w IH] using node_ind'; [cbn; lia|]. rewrite container_depth. cbn [nesting].
  assert (H : list_max (map (fun cell => 2 + list_max (map (fun n => jdepth (enc_node n)) cell)) cells) <=
     2 + (6 * list_max (map (fun cell => list_max (map nesting cell)) cells) + 1)).
  { apply list_max_bound. intros cell Hc. apply le_n_S, le_n_S, list_max_bound. intros n Hn. specialize (IH cell Hc n Hn).
    pose proof (list_max_map_in nesting Hn). pose proof (list_max_map_in (fun cell => list_max (map nesting cell)) Hc). cbn in *. lia. }
  lia.
Qed.
Lemma node_depth_ge n : wf_node n -> 6 * nesting n <= jdepth (enc_node n).
Proof.
  induction n as [s|v cells w IH] using node_ind'; intros Hwf; [cbn; lia|]. rewrite container_depth. cbn [nesting].
  inversion Hwf as [|v' cells' w' H1 H2 H3 H4]; subst.
  destruct (list_max_attained (fun cell => list_max (map nesting cell)) H2) as (cell&Hc&Ec). rewrite Ec.
  pose proof (list_max_map_in (fun cell => 2 + list_max (map (fun n => jdepth (enc_node n)) cell)) Hc) as Hm. cbn beta in Hm.
  assert (6 * list_max (map nesting cell) <= list_max (map (fun n => jdepth (enc_node n)) cell)); [|lia].
  destruct cell as [|x cell]; [cbn; lia|]. destruct (@list_max_attained _ nesting (x :: cell)) as (n&Hn&En); [discriminate|]. rewrite En.
  specialize (IH _ Hc n Hn (H4 _ Hc n Hn)). pose proof (list_max_map_in (fun n => jdepth (enc_node n)) Hn). cbn beta in *. lia.
Qed.

Section Decode.
Variable max : N.
Lemma dec_all_map A B (f : B -> option A) (g : A -> B) l : (forall x, In x l -> f (g x) = Some x) -> dec_all f (map g l) = Some l.
Proof.
  induction l as [|x l IH]; intros H; cbn; auto. rewrite (H x) by now left. rewrite IH by (intros y Hy; apply H; now right). reflexivity.
Qed.
Lemma dec_variant_enc v : dec_variant (JStr (variant_name v)) = Some v.
Proof. destruct v; reflexivity. Qed.
Lemma dec_node_enc n fuel : fits max n -> nesting n < fuel -> dec_node max fuel (enc_node n) = Some n.
Proof.
  revert fuel; induction n as [s|v cells w IH] using node_ind'; intros fuel Hf Hn; (destruct fuel as [|fuel]; [lia|]); [reflexivity|].
  inversion Hf as [|v' cells' w' Hw Hcells]; subst. cbn [enc_node dec_node].
  change (str_eqb (lit "Container") (lit "Symbol")) with false. change (str_eqb (lit "Container") (lit "Container")) with true. cbn iota.
  rewrite dec_variant_enc. unfold dec_grid_with, struct2.
  set (c := JArr _). change (get_field (lit "values") [(lit "values", c); (lit "width", JNum (N.of_nat w))]) with (Some c).
  change (get_field (lit "width") [(lit "values", c); (lit "width", JNum (N.of_nat w))]) with (Some (JNum (N.of_nat w))). cbn iota.
  unfold c, dec_vec. rewrite dec_all_map.
  - unfold dec_uint. destruct (N.of_nat w <=? max)%N eqn:E; [|lia]. now rewrite Nat2N.id.
  - intros cell Hc. unfold dec_row_with, enc_row_with, struct1. 
    set (d := JArr _). change (get_field (lit "values") [(lit "values", d)]) with (Some d). cbn iota. unfold d, dec_vec.
    apply dec_all_map. intros n Hin. apply (IH cell Hc n Hin); [exact (Hcells cell Hc n Hin)|]. cbn [nesting] in Hn.
    pose proof (list_max_map_in nesting Hin). pose proof (list_max_map_in (fun cell => list_max (map nesting cell)) Hc). cbn in *. lia.
Qed.

Lemma read_back nodes : read_json (serialize_input_nodes nodes) = Some (cut 127 (JObj [(lit "version", JNum 1); (lit "data", JArr (map enc_node nodes))])).
Proof.
  unfold read_json, serialize_input_nodes. set (j := JObj _).
  pose proof (@value_back j (2 * length (write_json j) + 2) 128 [] ltac:(lia) I) as H. rewrite app_nil_r in H. rewrite H. reflexivity.
Qed.
(** What is nested too deeply is not decoded. *)
Lemma dec_all_none A B (f : A -> option B) l x : In x l -> f x = None -> dec_all f l = None.
Proof.
  induction l as [|y l IH]; intros H E; [destruct H|]; destruct H as [->|H]; cbn [dec_all]; [now rewrite E|]. destruct (f y); [|reflexivity]. now rewrite (IH H E).
Qed.
Lemma dec_node_cut n : forall d fuel, d < jdepth (enc_node n) -> dec_node max fuel (cut d (enc_node n)) = None.
Proof.
  induction n as [s|v cells w IH] using node_ind'; intros d fuel Hd; (destruct fuel as [|fuel]; [reflexivity|]).
  { cbn in Hd. assert (d = 0) as -> by lia. reflexivity. }
  rewrite container_depth in Hd. cbn [enc_node]. destruct d as [|[|[|[|d]]]]; try reflexivity; cbn [cut map fst snd].
  1: { cbn [dec_node]. change (str_eqb (lit "Container") (lit "Symbol")) with false. change (str_eqb (lit "Container") (lit "Container")) with true. cbn iota. rewrite dec_variant_enc. reflexivity. }
  1: { cbn [dec_node]. change (str_eqb (lit "Container") (lit "Symbol")) with false. change (str_eqb (lit "Container") (lit "Container")) with true. cbn iota. rewrite dec_variant_enc. reflexivity. }
  cbn [dec_node]. change (str_eqb (lit "Container") (lit "Symbol")) with false. change (str_eqb (lit "Container") (lit "Container")) with true. cbn iota. rewrite dec_variant_enc.
  unfold dec_grid_with, struct2. match goal with |- context [JArr ?x] => set (c := JArr x) end. change (get_field (lit "values") [(lit "values", c); (lit "width", JNum (N.of_nat w))]) with (Some c).
  change (get_field (lit "width") [(lit "values", c); (lit "width", JNum (N.of_nat w))]) with (Some (JNum (N.of_nat w))). cbn iota.
  assert (E : dec_vec (dec_row_with (dec_node max fuel)) c = None); [|now rewrite E].
  assert (Hne : cells <> []) by (intros ->; cbn in Hd; lia).
  destruct (list_max_attained (fun cell => 2 + list_max (map (fun n => jdepth (enc_node n)) cell)) Hne) as (cell & Hc & Em). rewrite Em in Hd.
  unfold c, dec_vec. rewrite map_map. apply (@dec_all_none _ _ _ _ (cut d (enc_row_with enc_node cell))); [apply in_map_iff; exists cell; auto|].
  unfold dec_row_with, enc_row_with. destruct d as [|[|d]]; try reflexivity. cbn [cut map fst snd]. unfold struct1.
  match goal with |- context [JArr ?x] => set (e := JArr x) end. change (get_field (lit "values") [(lit "values", e)]) with (Some e). cbn iota. unfold e, dec_vec. clear c e.
  assert (Hne' : cell <> []) by (intros ->; cbn in Hd; lia).
  destruct (list_max_attained (fun n => jdepth (enc_node n)) Hne') as (n & Hn & En). rewrite En in Hd.
  rewrite map_map. apply (@dec_all_none _ _ _ _ (cut d (enc_node n))); [apply in_map_iff; exists n; auto|]. apply (IH cell Hc n Hn). lia.
Qed.
Lemma dec_data_enc nodes : fits_row max nodes -> row_nesting nodes < 128 ->
  dec_data max (JObj [(lit "version", JNum 1); (lit "data", JArr (map enc_node nodes))]) = Some nodes.
Proof.
  intros Hf Hn. unfold dec_data, struct2. set (d := JArr _).
  change (get_field (lit "version") [(lit "version", JNum 1); (lit "data", d)]) with (Some (JNum 1)).
  change (get_field (lit "data") [(lit "version", JNum 1); (lit "data", d)]) with (Some d). cbn iota.
  change (dec_uint 4294967295 (JNum 1)) with (Some 1%N). cbn iota. unfold d, dec_vec. apply dec_all_map. intros n Hin.
  apply dec_node_enc; auto. pose proof (list_max_map_in nesting Hin). unfold row_nesting in Hn. lia.
Qed.
(** Up to 20 containers around each other are read back. *)
Lemma deserialize_shallow nodes : fits_row max nodes -> row_nesting nodes <= 20 ->
  deserialize_input_nodes max (serialize_input_nodes nodes) = Some nodes.
Proof.
  intros Hf Hn. unfold deserialize_input_nodes. rewrite read_back.
  assert (H : list_max (map (fun n => jdepth (enc_node n)) nodes) <= 121).
  { apply list_max_bound. intros n Hin. pose proof (node_depth_le n). pose proof (list_max_map_in nesting Hin). unfold row_nesting in Hn. lia. }
  rewrite cut_id; [apply dec_data_enc; auto; lia|]. match goal with |- jdepth ?j <= _ => replace (jdepth j) with (2 + list_max (map (fun n => jdepth (enc_node n)) nodes)) end; [lia|].
  cbn [jdepth map list_max fold_right snd]. rewrite map_map, Nat.max_0_r. reflexivity.
Qed.
(** More are not. *)
Lemma deserialize_deep nodes : wf_row nodes -> 20 < row_nesting nodes ->
  deserialize_input_nodes max (serialize_input_nodes nodes) = None.
Proof.
  intros Hwf Hn. unfold deserialize_input_nodes. rewrite read_back.
  assert (H : exists n, In n nodes /\ 126 <= jdepth (enc_node n)).
  { destruct nodes as [|x nodes]; [cbn in Hn; lia|]. destruct (@list_max_attained _ nesting (x :: nodes)) as (n&Hin&E); [discriminate|].
    unfold row_nesting in Hn. rewrite E in Hn. pose proof (node_depth_ge (Hwf n Hin)).
    exists n. split; [exact Hin|lia]. }
  destruct H as (n & Hin & Hd). unfold dec_data, struct2.
  change (cut 127 (JObj [(lit "version", JNum 1); (lit "data", JArr (map enc_node nodes))])) with (JObj [(lit "version", JNum 1); (lit "data", JArr (map (cut 125) (map enc_node nodes)))]).
  set (d := JArr _).
  change (get_field (lit "version") [(lit "version", JNum 1); (lit "data", d)]) with (Some (JNum 1)).
  change (get_field (lit "data") [(lit "version", JNum 1); (lit "data", d)]) with (Some d). cbn iota.
  change (dec_uint 4294967295 (JNum 1)) with (Some 1%N). cbn iota. unfold d, dec_vec. rewrite map_map.
  apply (@dec_all_none _ _ _ _ (cut 125 (enc_node n))); [apply in_map_iff; exists n; auto|]. apply dec_node_cut. lia.
Qed.
End Decode.

(** A checker. *)
Fixpoint fitsb (max : N) (n : InputNode) : bool :=
  match n with
  | Symbol _ => true
  | Container _ (mkGrid cells w) => (N.of_nat w <=? max)%N && forallb (fun cell => forallb (fitsb max) cell) cells
  end.
Lemma fitsb_ok max n : fitsb max n = true -> fits max n.
Proof.
  induction n as [s|v cells w IH] using node_ind'; [constructor|]. cbn [fitsb]. rewrite andb_true_iff. intros [H1 H2].
  constructor; [lia|]. intros cell Hc n Hn. apply (IH cell Hc n Hn). rewrite forallb_forall in H2. apply H2 in Hc. rewrite forallb_forall in Hc. auto.
Qed.
Lemma fits_rowb_ok max r : forallb (fitsb max) r = true -> fits_row max r.
Proof. rewrite forallb_forall. intros H n Hn. apply fitsb_ok; auto. Qed.

(** ** The editor *)
Section WithSyntaxNode.
Variable SyntaxNode : Type.
Variable env : Env SyntaxNode.
Implicit Type ed : MathEditor SyntaxNode.

Lemma copied ed m : get_caret ed = Ok (MSelRow m) -> exists vs, nodes_in (ed_input ed) m vs /\
  step env ed OpCopy = Ok (ed, OutText _ (env_serialize env vs)).
Proof.
  intros H. destruct (get_caret_row H) as (c&r&Hc&Hs&G&<-). exists (firstn (rg_right r - rg_left r) (skipn (rg_left r) (fr_row (rg_focus r)))).
  split.
  - exists (fr_row (rg_focus r)). unfold lo, hi. cbn [rg_to_minimal mr_row mr_start mr_end]. rewrite <- rg_left_min, <- rg_right_max.
    split; [|split; [eapply good_range_right; eauto|reflexivity]]. destruct G as (G1&_&_). unfold rg_indices. now apply canonical_row.
  - cbn [step]. unfold copy. rewrite Hc. cbn [bind]. rewrite Hs. rewrite (rg_values_eq G). reflexivity.
Qed.
Lemma pasted ed m text nodes : get_caret ed = Ok (MSelRow m) -> (exists x, get_autocomplete env ed = Ok x) -> ~ autocorrect_pending env ed ->
  env_deserialize env text = Some nodes ->
  exists ed', step env ed (OpPaste text true) = Ok (ed', OutNone _) /\
    nodes_replaced (ed_input ed) (mr_row m) (lo m) (hi m) nodes (ed_input ed') /\
    ed_caret ed' = collapsed (mkMinPos (mr_row m) (lo m + length nodes)).
Proof.
  intros H [[ed1 r] Hg] Hp Hd. destruct (start_autocorrect_ok Hg) as (a&Ha&Hn). rewrite (Hn Hp) in Ha.
  apply get_autocomplete_only in Hg as (x&->). cbn [step]. unfold paste. rewrite Ha. cbn [bind negb]. rewrite Hd.
  destruct (@insert_nodes_result _ env (set_autocomplete ed x) m nodes H) as (ed2&ce&Hi&Hrep&Hc&_). rewrite Hi. cbn [bind].
  rewrite finish_autocorrect_none. cbn [bind out_opt]. exists ed2. split; auto.
Qed.
(** In a well-formed document, nodes that are pasted behind a completely typed token leave the token as it is. *)
Lemma pasted_wf ed m text nodes : get_caret ed = Ok (MSelRow m) -> (exists x, get_autocomplete env ed = Ok x) -> wf_row (ed_input ed) -> wf_row nodes ->
  env_deserialize env text = Some nodes ->
  exists ed' ce, step env ed (OpPaste text true) = Ok (ed', OutNone _) /\
    nodes_replaced (ed_input ed) (mr_row m) (lo m) (hi m) nodes (ed_input ed') /\
    ed_caret ed' = collapsed (mkMinPos (mr_row m) (lo m + length nodes)) /\
    advanced env ed [ce] ed' /\ ce_after ce = ed_caret ed' /\ ce_before ce = ed_caret ed.
Proof.
  intros H [[ed1 r] Hg] Hwf Hwn Hd. destruct (start_autocorrect_ok Hg) as (a&Ha&_).
  apply get_autocomplete_only in Hg as (x&->). cbn [step]. unfold paste. rewrite Ha. cbn [bind negb]. rewrite Hd.
  destruct (insert_settles Hwf Hwn H Ha) as (ed2&ce&Hi&Hfin&Hrep&Hc&A). rewrite Hi. cbn [bind].
  rewrite Hfin. cbn [bind out_opt]. exists ed2, ce. auto.
Qed.
Lemma nodes_in_wf doc m vs : wf_row doc -> nodes_in doc m vs -> wf_row vs.
Proof.
  intros Hwf (row&Hr&_&->). pose proof (row_get_wf Hwf Hr) as Hw. rewrite <- (firstn_skipn (lo m) row) in Hw. apply wf_row_app in Hw as [_ Hw].
  rewrite <- (firstn_skipn (hi m - lo m)) in Hw. now apply wf_row_app in Hw.
Qed.
Lemma rejected ed text ed' out : env_deserialize env text = None -> step env ed (OpPaste text true) = Ok (ed', out) ->
  out = OutNo _ /\ ed_input ed' = ed_input ed /\ ed_caret ed' = ed_caret ed /\ ed_undo ed' = ed_undo ed.
Proof.
  intros Hd H. cbn [step] in H. apply bind_ok in H as ([ed1 b]&H&E). inv E. unfold paste in H. apply bind_ok in H as ([ed0 a]&Ha&H).
  apply start_autocorrect_only in Ha as (x&->). cbn [negb] in H. rewrite Hd in H. inv H. auto.
Qed.
Lemma nodes_in_fun doc m vs vs' : nodes_in doc m vs -> nodes_in doc m vs' -> vs = vs'.
Proof. intros (r&Hr&_&->) (r'&Hr'&_&->). congruence. Qed.
Lemma copy_paste max ed m vs : uses_json env max -> get_caret ed = Ok (MSelRow m) -> nodes_in (ed_input ed) m vs ->
  fits_row max vs -> row_nesting vs <= 20 ->
  exists text, step env ed OpCopy = Ok (ed, OutText _ text) /\
    forall ed2 m2, get_caret ed2 = Ok (MSelRow m2) -> (exists x, get_autocomplete env ed2 = Ok x) ->
      ~ autocorrect_pending env ed2 \/ wf_row (ed_input ed) /\ wf_row (ed_input ed2) ->
    exists ed3, step env ed2 (OpPaste text true) = Ok (ed3, OutNone _) /\
      nodes_replaced (ed_input ed2) (mr_row m2) (lo m2) (hi m2) vs (ed_input ed3) /\
      ed_caret ed3 = collapsed (mkMinPos (mr_row m2) (lo m2 + length vs)).
Proof.
  intros [Hs Hd] Hg Hv Hf Hn. destruct (copied Hg) as (vs'&Hv'&Hc). rewrite (nodes_in_fun Hv' Hv) in Hc. exists (env_serialize env vs).
  split; auto. assert (Hback : env_deserialize env (env_serialize env vs) = Some vs) by (rewrite Hs, Hd; now apply deserialize_shallow).
  intros ed2 m2 Hg2 Ha [Hp|[Hw1 Hw2]]; [eapply pasted; eauto|].
  destruct (pasted_wf Hg2 Ha Hw2 (nodes_in_wf Hw1 Hv) Hback) as (ed3&ce&H1&H2&H3&_). eauto.
Qed.
Lemma copy_paste_deep max ed m vs : uses_json env max -> get_caret ed = Ok (MSelRow m) -> nodes_in (ed_input ed) m vs ->
  wf_row vs -> 20 < row_nesting vs ->
  exists text, step env ed OpCopy = Ok (ed, OutText _ text) /\
    forall ed2 ed3 out, step env ed2 (OpPaste text true) = Ok (ed3, out) -> out = OutNo _ /\ ed_input ed3 = ed_input ed2.
Proof.
  intros [Hs Hd] Hg Hv Hwf Hn. destruct (copied Hg) as (vs'&Hv'&Hc). rewrite (nodes_in_fun Hv' Hv) in Hc. exists (env_serialize env vs).
  split; auto. intros ed2 ed3 out H. apply rejected in H; [tauto|]. rewrite Hs, Hd. now apply deserialize_deep.
Qed.
(** Any nodes whatsoever can be pasted. *)
Lemma anything_pasted max ed m nodes : uses_json env max -> get_caret ed = Ok (MSelRow m) ->
  (exists x, get_autocomplete env ed = Ok x) -> ~ autocorrect_pending env ed -> fits_row max nodes -> row_nesting nodes <= 20 ->
  exists text ed', step env ed (OpPaste text true) = Ok (ed', OutNone _) /\
    nodes_replaced (ed_input ed) (mr_row m) (lo m) (hi m) nodes (ed_input ed').
Proof.
  intros [Hs Hd] Hg Ha Hp Hf Hn. destruct (@pasted ed m (serialize_input_nodes nodes) nodes) as (ed'&H1&H2&_); auto.
  - rewrite Hd. now apply deserialize_shallow.
  - eauto.
Qed.
Lemma pasted_any ed text nodes ed' out m : get_caret ed = Ok (MSelRow m) -> env_deserialize env text = Some nodes ->
  step env ed (OpPaste text true) = Ok (ed', out) ->
  ed_caret ed' = collapsed (mkMinPos (mr_row m) (lo m + length nodes)) /\
  exists doc1, nodes_replaced (ed_input ed) (mr_row m) (lo m) (hi m) nodes doc1 /\
    (ed_input ed' = doc1 \/ autocorrect_pending env ed /\ autocorrected_to env doc1 (ed_input ed')).
Proof.
  intros H Hd Hs. cbn [step] in Hs. apply bind_ok in Hs as ([ed0 b]&Hm&Hs). inv Hs. unfold paste in Hm.
  apply bind_ok in Hm as ([ed1 a]&Ha&Hm). pose proof (start_autocorrect_only Ha) as (x&->). cbn [negb] in Hm. rewrite Hd in Hm.
  destruct (@insert_nodes_result _ env (set_autocomplete ed x) m nodes H) as (ed2&ce&Hi&Hrep&Hc&_). rewrite Hi in Hm. cbn [bind] in Hm.
  apply bind_ok in Hm as (ed3&Hm&E). inv E. destruct (finish_autocorrect_result Ha Hm) as [Hcar Hr]. split; [congruence|].
  exists (ed_input ed2). split; [exact Hrep|]. destruct Hr as [->|Hr]; auto.
Qed.
Lemma paste_wf ed text nodes ed' out m : wf_row (ed_input ed) -> (forall rule, In rule (env_rules env) -> wf_row (rule_result rule)) ->
  get_caret ed = Ok (MSelRow m) -> env_deserialize env text = Some nodes -> wf_row nodes ->
  step env ed (OpPaste text true) = Ok (ed', out) -> wf_row (ed_input ed').
Proof.
  intros Hwf Hr Hg Hd Hn H. destruct (pasted_any Hg Hd H) as (_&doc1&Hrep&Hc). pose proof (nodes_replaced_wf Hrep Hwf Hn) as H1.
  destruct Hc as [->|(_&range&rule&Hin&Hrep')]; auto. exact (nodes_replaced_wf Hrep' H1 (Hr _ Hin)).
Qed.
(** Nothing else is checked. *)
Lemma paste_wf_only ed text nodes ed' out m : get_caret ed = Ok (MSelRow m) -> ~ autocorrect_pending env ed ->
  env_deserialize env text = Some nodes -> step env ed (OpPaste text true) = Ok (ed', out) -> wf_row (ed_input ed') -> wf_row nodes.
Proof.
  intros Hg Hp Hd H Hw. destruct (pasted_any Hg Hd H) as (_&doc1&Hrep&Hc). destruct Hc as [E|[? _]]; [|tauto]. subst doc1.
  destruct Hrep as (row&_&_&Hrep). pose proof (row_get_wf Hw (replaced_get_new Hrep)) as Hr. rewrite !wf_row_app in Hr. tauto.
Qed.
End WithSyntaxNode.
