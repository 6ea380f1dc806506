(** The helpers for arrays, maps and memoizing (C73). *)
From Verif Require Import Base Utils BaseFacts.
Open Scope list_scope.
Open Scope nat_scope.

(** * Arrays *)
(** The array is sorted: first the elements before the new value, then those equal to it, then those after it. *)
Definition sorted_for {T} (compare : T -> comparison) (array : list T) : Prop :=
  exists a b c, array = a ++ b ++ c /\ (forall x, In x a -> compare x = Lt) /\ (forall x, In x b -> compare x = Eq) /\ (forall x, In x c -> compare x = Gt).
Lemma sorted_lt T (compare : T -> comparison) array i x : sorted_for compare array -> nth_error array i = Some x -> compare x = Lt -> forall j y, j <= i -> nth_error array j = Some y -> compare y = Lt.
Proof.
  intros (a&b&c&->&Ha&Hb&Hc) E Hx j y Hj Ey.
  assert (i < length a) as Hi. { destruct (le_lt_dec (length a) i) as [L|L]; [|exact L]. rewrite nth_error_app2 in E by exact L. apply nth_error_In, in_app_iff in E as [E|E]; [rewrite Hb in Hx|rewrite Hc in Hx]; auto; discriminate. }
  rewrite nth_error_app1 in Ey by lia. apply Ha. eapply nth_error_In; eauto.
Qed.
Lemma sorted_gt T (compare : T -> comparison) array i x : sorted_for compare array -> nth_error array i = Some x -> compare x = Gt -> forall j y, i <= j -> nth_error array j = Some y -> compare y = Gt.
Proof.
  intros (a&b&c&->&Ha&Hb&Hc) E Hx j y Hj Ey. rewrite app_assoc in E, Ey.
  assert (length (a ++ b) <= i) as Hi. { destruct (le_lt_dec (length (a ++ b)) i) as [L|L]; [exact L|]. rewrite nth_error_app1 in E by exact L. apply nth_error_In, in_app_iff in E as [E|E]; [rewrite Ha in Hx|rewrite Hb in Hx]; auto; discriminate. }
  rewrite nth_error_app2 in Ey by lia. apply Hc. eapply nth_error_In; eauto.
Qed.
Lemma insert_loop T (compare : T -> comparison) array : sorted_for compare array -> forall fuel low high, low <= high -> high <= length array -> high - low <= fuel ->
  (forall j y, j < low -> nth_error array j = Some y -> compare y = Lt) -> (forall j y, high <= j -> nth_error array j = Some y -> compare y = Gt) ->
  exists i found, binary_insert_loop fuel array compare low high = Ok (i, found) /\ i <= length array /\
    if found then exists x, nth_error array i = Some x /\ compare x = Eq
    else (forall j y, j < i -> nth_error array j = Some y -> compare y = Lt) /\ (forall j y, i <= j -> nth_error array j = Some y -> compare y = Gt).
Proof.
  intros Hs. induction fuel as [|fuel IH]; intros low high Hlh Hha Hf Hl Hh; cbn [binary_insert_loop]; destruct (Nat.ltb_spec low high) as [L|L]; try lia.
  - exists low, false. replace high with low in Hh by lia. split; [reflexivity|]. split; [lia|]. auto.
  - set (middle := low + (high - 1 - low) / 2). assert (Hm : low <= middle < high). { unfold middle. pose proof (Nat.div_le_upper_bound (high - 1 - low) 2 (high - 1 - low)). lia. }
    destruct (nth_error array middle) as [x|] eqn:E; [|apply nth_error_None in E; lia]. destruct (compare x) eqn:Ec.
    + exists middle, true. split; [reflexivity|]. split; [lia|eauto].
    + apply IH; try lia; auto. intros j y Hj. apply (sorted_lt _ _ _ _ _ Hs E Ec). lia.
    + apply IH; try lia; auto. intros j y Hj. apply (sorted_gt _ _ _ _ _ Hs E Ec). lia.
  - exists low, false. replace high with low in Hh by lia. split; [reflexivity|]. split; [lia|]. auto.
Qed.
(** Binary search finds an element that is equal, or the only place at which a new one can be inserted. *)
Theorem C73_insert : forall T (compare : T -> comparison) array, sorted_for compare array ->
  exists i found, get_binary_insert_index array compare = Ok (i, found) /\ i <= length array /\ (found = true <-> exists x, In x array /\ compare x = Eq) /\
    (found = true -> exists x, nth_error array i = Some x /\ compare x = Eq) /\
    (found = false -> (forall x, In x (firstn i array) -> compare x = Lt) /\ (forall x, In x (skipn i array) -> compare x = Gt)).
Proof.
  intros T compare array Hs. destruct (insert_loop T compare array Hs (length array) 0 (length array)) as (i&found&E&Hi&H); try lia; [intros j y Hj Ey; apply nth_error_None in Hj; congruence|].
  exists i, found. split; [exact E|]. split; [exact Hi|]. destruct found.
  - destruct H as (x&Ex&Hx). repeat split; [|eauto|discriminate|discriminate]. intros _. exists x. split; [eapply nth_error_In; eauto|exact Hx].
  - destruct H as [H1 H2]. split; [split; [discriminate|]|].
    + intros (x&Hin&Hx). apply In_nth_error in Hin as [j Ej]. destruct (le_lt_dec i j); [rewrite (H2 j x) in Hx by assumption|rewrite (H1 j x) in Hx by assumption]; discriminate.
    + split; [discriminate|]. intros _. split; intros x Hin; apply In_nth_error in Hin as [j Ej].
      * assert (j < i) by (apply nth_error_Some_lt in Ej; rewrite firstn_length in Ej; lia). apply (H1 j); [assumption|]. rewrite <- (firstn_skipn i array), nth_error_app1; [exact Ej|]. rewrite firstn_length. apply nth_error_Some_lt in Ej. rewrite firstn_length in Ej. exact Ej.
      * apply (H2 (i + j)); [lia|]. rewrite <- (firstn_skipn i array), nth_error_app2; rewrite firstn_length; [|lia]. replace (i + j - Nat.min i (length array)) with j by lia. exact Ej.
Qed.
Print Assumptions C73_insert.
Example C73_insert_case : let compare x := Nat.compare x 5 in sorted_for compare [1; 3; 4; 7; 9] /\ get_binary_insert_index [1; 3; 4; 7; 9] compare = Ok (3, false).
Proof. split; [|reflexivity]. exists [1; 3; 4], [], [7; 9]. split; [reflexivity|]. repeat split; intros x H; repeat (destruct H as [<-|H]; [reflexivity|]); destruct H. Qed.

Lemma find_index_spec T (f : T -> nat -> bool) l : forall i, match find_index f i l with
  | Some k => exists a x b, l = a ++ x :: b /\ k = i + length a /\ f x k = true /\ forall j y, nth_error a j = Some y -> f y (i + j) = false
  | None => forall j y, nth_error l j = Some y -> f y (i + j) = false
  end.
Proof.
  induction l as [|c l IH]; intros i; cbn [find_index]; [intros [|j]; discriminate|]. destruct (f c i) eqn:E.
  - exists [], c, l. rewrite Nat.add_0_r. repeat split; auto. intros [|j]; discriminate.
  - specialize (IH (S i)). destruct (find_index f (S i) l) as [k|].
    + destruct IH as (a&x&b&->&->&Hx&Ha). exists (c :: a), x, b. cbn [length]. repeat split; [lia|exact Hx|]. intros [|j] y Ey; [inv Ey; now rewrite Nat.add_0_r|]. cbn in Ey. apply Ha in Ey. now replace (i + S j) with (S i + j) by lia.
    + intros [|j] y Ey; [inv Ey; now rewrite Nat.add_0_r|]. cbn in Ey. apply IH in Ey. now replace (i + S j) with (S i + j) by lia.
Qed.
(** [remove] takes out the first such element. *)
Theorem C73_remove : forall T (same : T -> T -> bool) array element, (forall a b, same a b = true <-> a = b) ->
  (exists a b, array = a ++ element :: b /\ ~ In element a /\ remove same array element = (a ++ b, true)) \/ (~ In element array /\ remove same array element = (array, false)).
Proof.
  intros T same array element Hs. unfold remove. pose proof (find_index_spec T (fun a _ => same a element) array 0) as F. destruct (find_index _ 0 array) as [k|].
  - left. destruct F as (a&x&b&->&->&Hx&Ha). apply Hs in Hx. subst x. exists a, b. split; [reflexivity|]. split.
    + intros Hin. apply In_nth_error in Hin as [j Ej]. apply Ha in Ej. assert (same element element = true) by now apply Hs. congruence.
    + cbn [Nat.add]. rewrite firstn_app, firstn_all, Nat.sub_diag, skipn_app, skipn_all2 by lia. replace (S (length a) - length a) with 1 by lia. cbn. now rewrite app_nil_r.
  - right. split; [|reflexivity]. intros Hin. apply In_nth_error in Hin as [j Ej]. apply F in Ej. assert (same element element = true) by now apply Hs. congruence.
Qed.
Print Assumptions C73_remove.
Example C73_remove_case : remove Nat.eqb [4; 2; 7; 2] 2 = ([4; 7; 2], true).
Proof. reflexivity. Qed.
(** The longest beginning of an array whose elements all satisfy a predicate, and the rest *)
Definition split_while {T} (predicate : T -> nat -> bool) (array a b : list T) : Prop :=
  array = a ++ b /\ (forall j y, nth_error a j = Some y -> predicate y j = true) /\ (forall y b', b = y :: b' -> predicate y (length a) = false).
Theorem C73_take_while : forall T (predicate : T -> nat -> bool) array, exists b, split_while predicate array (take_while array predicate) b.
Proof.
  intros T p array. unfold take_while. pose proof (find_index_spec T (fun a i => negb (p a i)) array 0) as F. destruct (find_index _ 0 array) as [k|].
  - destruct F as (a&x&b&->&->&Hx&Ha). exists (x :: b). cbn [Nat.add]. rewrite firstn_app, firstn_all, Nat.sub_diag. cbn [firstn]. rewrite app_nil_r. repeat split.
    + intros j y Ey. apply Ha in Ey. now apply negb_false_iff in Ey.
    + intros y b' E. inv E. now apply negb_true_iff in Hx.
  - exists []. split; [now rewrite app_nil_r|]. split; [|discriminate]. intros j y Ey. apply F in Ey. now apply negb_false_iff in Ey.
Qed.
Print Assumptions C73_take_while.
(** Missing: arrays all of whose elements satisfy the predicate. *)
Theorem C73_skip_while_partial : forall T (predicate : T -> nat -> bool) array, (exists j y, nth_error array j = Some y /\ predicate y j = false) ->
  exists a, split_while predicate array a (skip_while array predicate).
Proof.
  intros T p array (j0&y0&E0&H0). unfold skip_while. pose proof (find_index_spec T (fun a i => negb (p a i)) array 0) as F. destruct (find_index _ 0 array) as [k|].
  - destruct F as (a&x&b&->&->&Hx&Ha). exists a. cbn [Nat.add]. rewrite skipn_app, skipn_all, Nat.sub_diag. cbn [skipn app]. repeat split.
    + intros j y Ey. apply Ha in Ey. now apply negb_false_iff in Ey.
    + intros y b' E. inv E. now apply negb_true_iff in Hx.
  - apply F in E0. cbn in E0. rewrite H0 in E0. discriminate.
Qed.
Print Assumptions C73_skip_while_partial.
(** It skips as it should exactly if something remains or there is nothing at all; otherwise it skips nothing. *)
Theorem C73_skip_while_exact : forall T (predicate : T -> nat -> bool) array,
  ((exists a, split_while predicate array a (skip_while array predicate)) <-> array = [] \/ exists j y, nth_error array j = Some y /\ predicate y j = false) /\
  ((forall j y, nth_error array j = Some y -> predicate y j = true) -> skip_while array predicate = array).
Proof.
  intros T p array. assert (W : (forall j y, nth_error array j = Some y -> p y j = true) -> skip_while array p = array).
  { intros H. unfold skip_while. pose proof (find_index_spec T (fun a i => negb (p a i)) array 0) as F. destruct (find_index _ 0 array) as [k|]; [|reflexivity].
    destruct F as (a&x&b&E&->&Hx&_). exfalso. cbn [Nat.add] in Hx. specialize (H (length a) x). rewrite E, nth_error_app2, Nat.sub_diag in H by lia. specialize (H eq_refl). rewrite H in Hx. discriminate Hx. }
  split; [|exact W]. split.
  - intros (a&E&Ha&Hb). destruct array as [|x array]; [now left|right].
    destruct (skip_while (x :: array) p) as [|y b] eqn:Es; [|exists (length a), y; split; [rewrite E, nth_error_app2, Nat.sub_diag by lia; reflexivity|exact (Hb y b eq_refl)]].
    exfalso. rewrite app_nil_r in E. enough (Z : [] = x :: array) by discriminate Z. apply W. rewrite E. exact Ha.
  - intros [->|H]; [|exact (C73_skip_while_partial T p array H)]. exists []. split; [reflexivity|]. split; [intros [|j] y E; discriminate E|]. intros y b E. vm_compute in E. discriminate E.
Qed.
Print Assumptions C73_skip_while_exact.
(** If all elements are to be skipped, none is. *)
Theorem C73_skip_while_refuted : exists (array : list nat) (predicate : nat -> nat -> bool), ~ exists a, split_while predicate array a (skip_while array predicate).
Proof.
  exists [1], (fun _ _ => true). intros (a&_&_&H). specialize (H 1 [] eq_refl). discriminate.
Qed.
Print Assumptions C73_skip_while_refuted.
Example C73_while_case : take_while [1; 2; 5; 1] (fun x _ => x <? 3) = [1; 2] /\ skip_while [1; 2; 5; 1] (fun x _ => x <? 3) = [5; 1].
Proof. split; reflexivity. Qed.
(** Pairs up to the length of the longer array *)
Theorem C73_zip : forall T (a b : list T) i, nth_error (zip_with a b) i = if i <? Nat.max (length a) (length b) then Some (nth_error a i, nth_error b i) else None.
Proof.
  intros T a b i. unfold zip_with. rewrite nth_error_map. destruct (Nat.ltb_spec i (Nat.max (length a) (length b))) as [L|L].
  - rewrite (nth_error_nth' _ 0) by now rewrite seq_length. rewrite seq_nth by exact L. reflexivity.
  - assert (nth_error (seq 0 (Nat.max (length a) (length b))) i = None) as -> by (apply nth_error_None; now rewrite seq_length). reflexivity.
Qed.
Print Assumptions C73_zip.
(** The numbers from [start] to [end_], which does not belong to them; an error if [end_] is smaller *)
Theorem C73_range : forall start end_, range start end_ = if end_ <? start then Panic PAssert else Ok (seq start (end_ - start)).
Proof. intros start end_. unfold range. destruct (end_ <? start); [reflexivity|]. f_equal. generalize (end_ - start). intros n. assert (G : forall i, map (fun k => k + start) (seq i n) = seq (i + start) n); [|exact (G 0)]. induction n as [|n IH]; intros i; [reflexivity|]. cbn [seq map]. now rewrite IH. Qed.
Print Assumptions C73_range.
Theorem C73_equal : forall T (same : T -> T -> bool) a b, (forall x y, same x y = true <-> x = y) -> shallow_equals same a b = true <-> a = b.
Proof.
  intros T same a b Hs. unfold shallow_equals. revert b. induction a as [|x a IH]; intros [|y b]; cbn; try (split; [discriminate|discriminate]); [split; auto|].
  specialize (IH b). rewrite andb_true_iff in *. rewrite andb_true_iff. rewrite Hs. split; [intros (H1&->&H2); f_equal; now apply IH|]. intros E. inv E. destruct (proj2 IH eq_refl). auto.
Qed.
Print Assumptions C73_equal.

(** * Maps *)
Section Maps.
Variables K V : Type.
Variable key_eqb : K -> K -> bool.
Hypothesis key_ok : forall a b, key_eqb a b = true <-> a = b.
Lemma key_refl a : key_eqb a a = true.
Proof. now apply key_ok. Qed.
Lemma get_set A (m : list (K * A)) k v k' : map_get key_eqb (map_set key_eqb m k v) k' = if key_eqb k k' then Some v else map_get key_eqb m k'.
Proof.
  induction m as [|[a b] m IH]; cbn [map_set map_get]; [reflexivity|]. destruct (key_eqb a k) eqn:E; cbn [map_get].
  - apply key_ok in E. subst. destruct (key_eqb k k'); reflexivity.
  - rewrite IH. destruct (key_eqb a k') eqn:E'; [|reflexivity]. destruct (key_eqb k k') eqn:E2; [|reflexivity]. apply key_ok in E', E2. subst. rewrite key_refl in E. discriminate.
Qed.
Lemma set_keys A (m : list (K * A)) k v : map fst (map_set key_eqb m k v) = map fst m ++ match map_get key_eqb m k with Some _ => [] | None => [k] end.
Proof.
  induction m as [|[a b] m IH]; cbn [map_set map_get map fst app]; [reflexivity|]. destruct (key_eqb a k); cbn [map fst app]; [now rewrite app_nil_r|]. now rewrite IH.
Qed.
(** After the call the map has the value, and nothing else changed. *)
Lemma default_spec (m : list (K * V)) k d : let (m', v) := get_or_default key_eqb m k d in
  map_get key_eqb m' k = Some v /\ (forall k', k' <> k -> map_get key_eqb m' k' = map_get key_eqb m k') /\ v = match map_get key_eqb m k with Some v => v | None => d end.
Proof.
  unfold get_or_default. destruct (map_get key_eqb m k) as [v|] eqn:E; [auto|]. rewrite get_set, key_refl. repeat split; auto.
  intros k' Hk. rewrite get_set. destruct (key_eqb k k') eqn:E'; [apply key_ok in E'; congruence|reflexivity].
Qed.
(** The keys in the order of their first occurrences *)
Fixpoint firsts (l : list K) : list K := match l with [] => [] | k :: l => k :: filter (fun k' => negb (key_eqb k k')) (firsts l) end.
Lemma firsts_in l k : In k (firsts l) <-> In k l.
Proof.
  induction l as [|a l IH]; [easy|]. cbn. rewrite filter_In, IH. split; [tauto|]. intros [->|H]; [now left|]. destruct (key_eqb a k) eqn:E; [apply key_ok in E; now left|]. right. auto.
Qed.
Lemma firsts_snoc l k : firsts (l ++ [k]) = firsts l ++ if existsb (key_eqb k) l then [] else [k].
Proof.
  induction l as [|a l IH]; cbn [firsts app existsb]; [reflexivity|]. rewrite IH, filter_app. f_equal. f_equal. destruct (key_eqb k a) eqn:E.
  - apply key_ok in E. subst. cbn [orb]. destruct (existsb (key_eqb a) l); [reflexivity|]. cbn. now rewrite key_refl.
  - cbn [orb]. destruct (existsb (key_eqb k) l); [reflexivity|]. cbn. destruct (key_eqb a k) eqn:E'; [|reflexivity]. apply key_ok in E'. subst. rewrite key_refl in E. discriminate.
Qed.
Lemma group_spec (key : V -> K) values : map fst (group_by key_eqb values key) = firsts (map key values) /\
  forall k, map_get key_eqb (group_by key_eqb values key) k = match filter (fun v => key_eqb (key v) k) values with [] => None | l => Some l end.
Proof.
  unfold group_by. induction values as [|v values [IH1 IH2]] using rev_ind; [split; reflexivity|]. rewrite fold_left_app. cbn [fold_left]. set (m := fold_left _ values []) in *. split.
  - rewrite set_keys, IH1, IH2, map_app. cbn [map]. rewrite firsts_snoc. f_equal.
    assert (E : existsb (key_eqb (key v)) (map key values) = match filter (fun w => key_eqb (key w) (key v)) values with [] => false | _ => true end).
    { clear - key_ok. induction values as [|a l IH]; [reflexivity|]. cbn. rewrite IH. assert (key_eqb (key v) (key a) = key_eqb (key a) (key v)) as ->; [|destruct (key_eqb (key a) (key v)); reflexivity].
      destruct (key_eqb (key v) (key a)) eqn:E; destruct (key_eqb (key a) (key v)) eqn:E'; auto; [apply key_ok in E; rewrite E, key_refl in E'|apply key_ok in E'; rewrite E', key_refl in E]; discriminate. }
    rewrite E. destruct (filter _ values); reflexivity.
  - intros k. rewrite get_set, filter_app. cbn [filter]. destruct (key_eqb (key v) k) eqn:E.
    + apply key_ok in E. subst k. rewrite IH2. destruct (filter _ values) as [|a l]; reflexivity.
    + rewrite app_nil_r. apply IH2.
Qed.
End Maps.
Theorem C73_default : forall K V (key_eqb : K -> K -> bool) (m : list (K * V)) k d m' v, (forall a b, key_eqb a b = true <-> a = b) -> get_or_default key_eqb m k d = (m', v) ->
  map_get key_eqb m' k = Some v /\ (forall k', k' <> k -> map_get key_eqb m' k' = map_get key_eqb m k') /\ v = match map_get key_eqb m k with Some v => v | None => d end.
Proof. intros K V eqb m k d m' v Hk E. pose proof (default_spec K V eqb Hk m k d) as H. now rewrite E in H. Qed.
Print Assumptions C73_default.
(** Every group has the values with its key, in their order; the keys are in the order in which they first occur. *)
Theorem C73_group : forall K V (key_eqb : K -> K -> bool) (key : V -> K) values, (forall a b, key_eqb a b = true <-> a = b) ->
  map fst (group_by key_eqb values key) = firsts K key_eqb (map key values) /\
  forall k, map_get key_eqb (group_by key_eqb values key) k = match filter (fun v => key_eqb (key v) k) values with [] => None | l => Some l end.
Proof. intros K V eqb key values Hk. now apply group_spec. Qed.
Print Assumptions C73_group.
Example C73_group_case : group_by Nat.eqb [5; 2; 7; 4] (fun x => x mod 2) = [(1, [5; 7]); (0, [2; 4])].
Proof. reflexivity. Qed.

(** * Memoizing *)
(** A memoized function gives the same results. Missing: calls with different numbers of arguments, calls without arguments, and first
    calls with nothing but [undefined]. *)
Theorem C73_memoize_partial : forall V R (same : V -> V -> bool) undefined (fn : list V -> R) calls n,
  (forall a b, same a b = true -> a = b) -> 0 < n -> Forall (fun args => length args = n) calls ->
  (forall args, hd_error calls = Some args -> exists a, In a args /\ a <> undefined) ->
  memo_calls same undefined fn (new_memo V R) calls = map (fun args => Some (fn args)) calls.
Proof.
  intros V R same undefined fn calls n Hs Hn Hl Hf.
  assert (M : forall args cached, length args = length cached -> args_match same undefined args cached = true -> args = cached).
  { induction args as [|a args IH]; intros [|b cached] L H; try discriminate; [reflexivity|]. cbn in H. apply andb_prop in H as [H1 H2]. apply Hs in H1. subst. f_equal. apply IH; auto. }
  assert (G : forall calls m, Forall (fun args => length args = n) calls -> length (cached_args m) = n -> cached_value m = Some (fn (cached_args m)) -> memo_calls same undefined fn m calls = map (fun args => Some (fn args)) calls).
  { clear calls Hl Hf. induction calls as [|args calls IH]; intros m Hl Hm Hv; [reflexivity|]. inv Hl. cbn [memo_calls map]. unfold memo_call. destruct (args_match same undefined args (cached_args m)) eqn:E.
    - apply M in E; [|congruence]. rewrite Hv, <- E. f_equal. apply IH; auto.
    - f_equal. apply IH; auto. }
  destruct calls as [|args calls]; [reflexivity|]. inv Hl. cbn [memo_calls map]. unfold memo_call. cbn [new_memo cached_args].
  destruct (args_match same undefined args []) eqn:E; [|f_equal; apply G; auto]. exfalso. destruct (Hf args eq_refl) as (a&Ha&Hu). apply Hu. clear - E Ha Hs. revert E. 
  assert (K : forall args (cached : list V), cached = [] -> In a args -> args_match same undefined args cached = true -> a = undefined); [|eauto].
  clear args Ha. induction args as [|b args IH]; intros cached -> Ha H; [easy|]. cbn in H. apply andb_prop in H as [H1 H2]. apply Hs in H1. destruct Ha as [->|Ha]; [exact H1|]. eauto.
Qed.
Print Assumptions C73_memoize_partial.
(** A function without arguments is never called; with fewer arguments than before the result may be that of the last call; 0 stands for [undefined]. *)
Theorem C73_memoize_refuted : exists (fn : list nat -> nat),
  memo_calls Nat.eqb 0 fn (new_memo nat nat) [[]; []] = [None; None] /\
  memo_calls Nat.eqb 0 fn (new_memo nat nat) [[1; 2]; [1]] = [Some (fn [1; 2]); Some (fn [1; 2])] /\ fn [1; 2] <> fn [1] /\
  memo_calls Nat.eqb 0 fn (new_memo nat nat) [[0]] = [None].
Proof. exists (@length nat). repeat split; try reflexivity. discriminate. Qed.
Print Assumptions C73_memoize_refuted.
Example C73_memoize_case : memo_calls Nat.eqb 0 (fun args => list_sum args) (new_memo nat nat) [[1; 2]; [1; 2]; [2; 2]] = [Some 3; Some 3; Some 4].
Proof. reflexivity. Qed.
