(** Names and ids correspond one to one. *)
From Coq Require Import Permutation.
From Verif Require Import Base Str NameMap BaseFacts.
Set Implicit Arguments.
Unset Strict Implicit.

Lemma path_eqb_eq a b : path_eqb a b = true <-> a = b.
Proof.
  revert b; induction a as [|x a IH]; intros [|y b]; cbn; try (split; congruence).
  rewrite andb_true_iff, str_eqb_eq, IH. split; [intros [-> ->]; reflexivity|intros H; inv H; auto].
Qed.

(** ** Hash maps *)
Section HashMap.
Variables K V : Type.
Variable eqb : K -> K -> bool.
Hypothesis eqb_eq : forall a b, eqb a b = true <-> a = b.
Implicit Type m : HashMap K V.

Lemma hm_get_none m k : hm_get eqb m k = None <-> ~ In k (map fst m).
Proof.
  induction m as [|[k' v] m IH]; cbn; [tauto|]. destruct (eqb k k') eqn:E.
  - apply eqb_eq in E. subst. split; [discriminate|]. intros H. elim H. now left.
  - rewrite IH. assert (k' <> k) by (intros ->; rewrite (proj2 (eqb_eq k k) eq_refl) in E; discriminate). tauto.
Qed.
Lemma hm_insert_new m k v : ~ In k (map fst m) -> hm_insert eqb m k v = m ++ [(k, v)].
Proof.
  induction m as [|[k' v'] m IH]; cbn; intros H; auto. destruct (eqb k k') eqn:E.
  - apply eqb_eq in E. subst. elim H. now left.
  - rewrite IH by tauto. reflexivity.
Qed.
Lemma hm_get_app m m' k : hm_get eqb (m ++ m') k = match hm_get eqb m k with Some v => Some v | None => hm_get eqb m' k end.
Proof. induction m as [|[k' v] m IH]; cbn; auto. destruct (eqb k k'); auto. Qed.
Lemma hm_get_nth m i k v : NoDup (map fst m) -> nth_error m i = Some (k, v) -> hm_get eqb m k = Some v.
Proof.
  revert i; induction m as [|[k' v'] m IH]; intros i Hn Hi; [destruct i; discriminate|]. inversion Hn as [|? ? Hk Hm]; subst.
  destruct i as [|i]; cbn in *.
  - inv Hi. now rewrite (proj2 (eqb_eq k k) eq_refl).
  - destruct (eqb k k') eqn:E; [|eauto]. apply eqb_eq in E. subst. elim Hk. apply nth_error_In in Hi. now apply (in_map fst) in Hi.
Qed.
Lemma hm_get_in m k v : hm_get eqb m k = Some v -> exists i, nth_error m i = Some (k, v).
Proof.
  induction m as [|[k' v'] m IH]; cbn; [discriminate|]. destruct (eqb k k') eqn:E.
  - intros H. inv H. apply eqb_eq in E. subst. now exists 0.
  - intros H. destruct (IH H) as [i Hi]. now exists (Datatypes.S i).
Qed.
End HashMap.

(** ** The invariant: the ids count the names *)
Definition counted (l : list PathIdentifier) (m : SyntaxNodeNameMap) : Prop :=
  NoDup l /\ length (nm_values m) = length l /\
  forall i name, nth_error l i = Some name -> nth_error (nm_values m) i = Some (name, as_u32 i).
Lemma counted_names l m : counted l m -> map fst (nm_values m) = l.
Proof.
  intros (_&Hl&H). revert Hl H. generalize (nm_values m) as vs, as_u32 as f. induction l as [|x l IH]; intros [|[k v] vs] f Hl H; cbn in Hl; try discriminate; auto.
  pose proof (H 0 x eq_refl) as H0. cbn in H0. inv H0. cbn. f_equal. apply (IH vs (fun i => f (Datatypes.S i))); [lia|].
  intros i name Hi. exact (H (Datatypes.S i) name Hi).
Qed.
Lemma counted_add l m name : counted l m ->
  (In name l -> fst (name_map_add m name) = m) /\ (~ In name l -> counted (l ++ [name]) (fst (name_map_add m name))).
Proof.
  intros C. pose proof (counted_names C) as Hn. destruct C as (Nd&Hl&H). unfold name_map_add. split; intros Hi.
  - destruct (hm_get path_eqb (nm_values m) name) eqn:E; [reflexivity|]. apply (hm_get_none path_eqb_eq) in E. rewrite Hn in E. contradiction.
  - destruct (hm_get path_eqb (nm_values m) name) eqn:E.
    { apply (hm_get_in path_eqb_eq) in E as (j&E). apply nth_error_In in E. apply (in_map fst) in E. rewrite Hn in E. contradiction. }
    cbn [fst nm_values]. apply (hm_get_none path_eqb_eq) in E. split; [|split].
    + apply (Permutation_NoDup (Permutation_cons_append l name)). now constructor.
    + cbn. rewrite (hm_insert_new path_eqb_eq _ E), !app_length. cbn. lia.
    + intros i x Hx. cbn. rewrite (hm_insert_new path_eqb_eq _ E). destruct (Nat.lt_ge_cases i (length l)) as [Hlt|Hge].
      * rewrite nth_error_app1 in * by lia. auto.
      * rewrite nth_error_app2 in * by lia. rewrite Hl. destruct (i - length l) as [|k] eqn:Ek; [|destruct k; discriminate].
        cbn in Hx. inv Hx. cbn. do 2 f_equal. unfold as_u32. do 2 f_equal. lia.
Qed.

Lemma counted_new : counted [] name_map_new.
Proof. split; [constructor|]. split; auto. intros [|i] ?; discriminate. Qed.
Lemma path_in_dec (x : PathIdentifier) l : In x l \/ ~ In x l.
Proof.
  destruct (hm_get path_eqb (map (fun p => (p, tt)) l) x) eqn:E.
  - left. apply (hm_get_in path_eqb_eq) in E as (i&E). apply nth_error_In in E. apply in_map_iff in E as (y&Hy&Hi). inv Hy. exact Hi.
  - right. apply (hm_get_none path_eqb_eq) in E. intros H. apply E. rewrite map_map. apply in_map_iff. exists x. auto.
Qed.
Lemma counted_add_all l m names : counted l m -> exists l', counted (l ++ l') (add_all m names) /\
  (forall x, In x (l ++ l') <-> In x l \/ In x names).
Proof.
  revert l m; induction names as [|name names IH]; intros l m C; cbn [add_all].
  - exists []. rewrite app_nil_r. split; auto. intros x. cbn. tauto.
  - destruct (counted_add name C) as [H1 H2]. destruct (path_in_dec name l) as [Hi|Hi].
    + rewrite (H1 Hi). destruct (IH l m C) as (l'&C'&Hx). exists l'. split; auto. intros x. rewrite Hx. cbn. split; [tauto|].
      intros [H|[<-|H]]; auto.
    + destruct (IH _ _ (H2 Hi)) as (l'&C'&Hx). exists (name :: l'). rewrite <- app_assoc in C', Hx. cbn in C'. split; auto.
      intros x. cbn in Hx. rewrite Hx, in_app_iff. cbn. tauto.
Qed.
Lemma counted_get l m i name : counted l m -> nth_error l i = Some name -> name_map_get m name = Some (as_u32 i).
Proof.
  intros C Hi. pose proof (counted_names C) as Hn. destruct C as (Nd&Hl&H). unfold name_map_get.
  apply (hm_get_nth path_eqb_eq) with (i := i); [now rewrite Hn|auto].
Qed.
Lemma counted_get_inv l m name id : counted l m -> name_map_get m name = Some id -> exists i, nth_error l i = Some name /\ id = as_u32 i.
Proof.
  intros C H. unfold name_map_get in H. apply (hm_get_in path_eqb_eq) in H as (i&H). exists i.
  assert (Hn : nth_error l i = Some name) by (rewrite <- (counted_names C), nth_error_map, H; reflexivity).
  split; auto. destruct C as (_&_&C). rewrite (C _ _ Hn) in H. now inv H.
Qed.

(** ** Stable ids *)
Lemma ids_known names name : In name names <-> exists id, name_map_get (add_all name_map_new names) name = Some id.
Proof.
  destruct (counted_add_all names counted_new) as (l&C&Hx). cbn in C, Hx. split.
  - intros H. assert (Hl : In name l) by (apply Hx; now right). apply In_nth_error in Hl as [i Hi]. rewrite (counted_get C Hi). eauto.
  - intros [id H]. destruct (counted_get_inv C H) as (i&Hi&_). apply nth_error_In, Hx in Hi. tauto.
Qed.
Lemma ids_stable names more name : In name names ->
  name_map_get (add_all (add_all name_map_new names) more) name = name_map_get (add_all name_map_new names) name.
Proof.
  intros H. destruct (counted_add_all names counted_new) as (l&C&Hx). cbn in C, Hx.
  assert (Hl : In name l) by (apply Hx; now right). apply In_nth_error in Hl as [i Hi].
  destruct (counted_add_all more C) as (l'&C'&_). rewrite (counted_get C Hi). apply (counted_get C').
  rewrite nth_error_app1; auto. apply nth_error_Some. congruence.
Qed.
Lemma ids_returned names name : name_map_get (fst (name_map_add (add_all name_map_new names) name)) name =
  Some (snd (name_map_add (add_all name_map_new names) name)).
Proof.
  unfold name_map_add. destruct (hm_get path_eqb _ name) as [id|] eqn:E; [exact E|]. cbn [fst snd]. unfold name_map_get. cbn [nm_values].
  rewrite (hm_insert_new path_eqb_eq) by now apply (hm_get_none path_eqb_eq).
  rewrite hm_get_app, E. cbn. now rewrite (proj2 (path_eqb_eq name name) eq_refl).
Qed.

(** ** Few enough names *)
Definition few (names : list PathIdentifier) : Prop := forall l, NoDup l -> incl l names -> (N.of_nat (length l) <= two32)%N.
Lemma as_u32_small i : (N.of_nat i < two32)%N -> as_u32 i = N.of_nat i.
Proof. intros H. unfold as_u32. now apply N.mod_small. Qed.
Definition mirrored (m : SyntaxNodeNameMap) : Prop := nm_reverse m = map (fun '(a, b) => (b, a)) (nm_values m).
Lemma id_keys l m id : counted l m -> (N.of_nat (length l) <= two32)%N ->
  In id (map fst (map (fun '(a, b) => (b, a)) (nm_values m))) -> (id < N.of_nat (length l))%N.
Proof.
  intros C Hl H. rewrite map_map in H. apply in_map_iff in H as ([name id']&E&H). cbn in E. subst id'. apply In_nth_error in H as [i Hi].
  assert (Hlt : i < length l) by (destruct C as (_&<-&_); apply nth_error_Some; congruence).
  assert (Hn : nth_error l i = Some name) by (rewrite <- (counted_names C), nth_error_map, Hi; reflexivity).
  destruct C as (_&_&C). rewrite (C _ _ Hn) in Hi. inv Hi. rewrite as_u32_small; lia.
Qed.
Lemma mirrored_add l m name : counted l m -> mirrored m -> (N.of_nat (length l) < two32)%N -> mirrored (fst (name_map_add m name)).
Proof.
  intros C M Hl. unfold mirrored, name_map_add. destruct (hm_get path_eqb _ name) as [id|] eqn:E; [exact M|]. cbn [fst nm_values nm_reverse].
  rewrite (hm_insert_new path_eqb_eq) by now apply (hm_get_none path_eqb_eq). rewrite map_app. rewrite M.
  rewrite (hm_insert_new N.eqb_eq); [reflexivity|]. intros H. apply (id_keys C) in H; [|lia].
  destruct C as (_&C&_). rewrite C, as_u32_small in H; lia.
Qed.
Lemma mirrored_all l m names : counted l m -> mirrored m -> few (l ++ names) -> mirrored (add_all m names).
Proof.
  revert l m; induction names as [|name names IH]; intros l m C M F; cbn [add_all]; auto.
  destruct (counted_add name C) as [H1 H2]. destruct (path_in_dec name l) as [Hi|Hi].
  - rewrite (H1 Hi). apply (IH l); auto. intros k Nk Ik. apply F; auto. intros x Hx. apply Ik in Hx. rewrite in_app_iff in *. cbn. tauto.
  - assert (F' : few ((l ++ [name]) ++ names)) by now rewrite <- app_assoc.
    apply (IH (l ++ [name])); auto. apply (mirrored_add (l := l)); auto.
    specialize (F' (l ++ [name])). destruct (H2 Hi) as (Nd&_). specialize (F' Nd (fun x Hx => proj2 (in_app_iff _ _ _) (or_introl Hx))).
    rewrite app_length in F'. cbn in F'. lia.
Qed.
Lemma names_and_ids names : few names -> let m := add_all name_map_new names in
  (forall name id, name_map_get m name = Some id <-> name_map_get_reverse m id = Some name) /\
  (forall a b id, name_map_get m a = Some id -> name_map_get m b = Some id -> a = b).
Proof.
  intros F m. destruct (counted_add_all names counted_new) as (l&C&Hx). cbn in C, Hx. fold m in C.
  assert (M : mirrored m) by (apply (mirrored_all counted_new); auto; reflexivity).
  assert (Hl : (N.of_nat (length l) <= two32)%N). { apply F; [apply C|]. intros x H. apply Hx in H. tauto. }
  assert (Hinj : forall i j, i < length l -> j < length l -> as_u32 i = as_u32 j -> i = j).
  { intros i j Hi Hj. rewrite !as_u32_small by lia. lia. }
  assert (Hlt : forall i name, nth_error l i = Some name -> i < length l) by (intros i name H; apply nth_error_Some; congruence).
  assert (Hnd : NoDup (map fst (nm_reverse m))).
  { rewrite M. pose proof C as (Nd&Hlen&Hc). apply NoDup_nth_error. rewrite !map_length, Hlen. intros i j Hi H.
    assert (Hval : forall i, i < length l -> nth_error (map fst (map (fun '(a, b) => (b, a)) (nm_values m))) i = Some (as_u32 i)).
    { intros k Hk. apply nth_error_Some in Hk. destruct (nth_error l k) as [name|] eqn:Ek; [|congruence].
      rewrite !nth_error_map, (Hc _ _ Ek). reflexivity. }
    assert (Hj : j < length l). { rewrite (Hval i Hi) in H. symmetry in H. assert (nth_error (map fst (map (fun '(a, b) => (b, a)) (nm_values m))) j <> None) by congruence.
      apply nth_error_Some in H0. rewrite !map_length, Hlen in H0. exact H0. }
    rewrite (Hval i Hi), (Hval j Hj) in H. inv H. now apply Hinj. }
  split.
  - intros name id. split; intros H.
    + destruct (counted_get_inv C H) as (i&Hi&->). unfold name_map_get_reverse. apply (hm_get_nth N.eqb_eq) with (i := i); auto.
      rewrite M, nth_error_map. destruct C as (_&_&C). now rewrite (C _ _ Hi).
    + unfold name_map_get_reverse in H. apply (hm_get_in N.eqb_eq) in H as (i&H). rewrite M, nth_error_map in H.
      destruct (nth_error (nm_values m) i) as [[a b]|] eqn:E; [|discriminate]. cbn in H. inv H.
      unfold name_map_get. apply (hm_get_nth path_eqb_eq) with (i := i); auto. rewrite (counted_names C). apply C.
  - intros a b id Ha Hb. destruct (counted_get_inv C Ha) as (i&Hi&->). destruct (counted_get_inv C Hb) as (j&Hj&E).
    apply Hinj in E; eauto. subst. congruence.
Qed.

(** ** Too many names *)
Definition numbered (k : nat) : list PathIdentifier := map (fun i => [[N.of_nat i]]) (seq 0 k).
Lemma add_all_distinct l m names : counted l m -> NoDup (l ++ names) -> counted (l ++ names) (add_all m names).
Proof.
  revert l m; induction names as [|name names IH]; intros l m C Nd; cbn [add_all]; [now rewrite app_nil_r|].
  change (name :: names) with ([name] ++ names) in *. rewrite app_assoc in *. apply IH; auto. apply counted_add; auto.
  rewrite <- app_assoc in Nd. apply NoDup_remove_2 in Nd. intros H. apply Nd. apply in_or_app. now left.
Qed.
Lemma numbered_NoDup k : NoDup (numbered k).
Proof. apply FinFun.Injective_map_NoDup; [|apply seq_NoDup]. intros i j H. inv H. lia. Qed.
Lemma too_many_names : exists names a b id, a <> b /\ In a names /\ In b names /\
  name_map_get (add_all name_map_new names) a = Some id /\ name_map_get (add_all name_map_new names) b = Some id.
Proof.
  assert (exists k, N.of_nat k = two32) as [k Ek] by (exists (N.to_nat two32); apply N2Nat.id). exists (numbered (Datatypes.S k)), [[0%N]], [[N.of_nat k]], 0%N.
  pose proof (@add_all_distinct [] name_map_new (numbered (Datatypes.S k)) counted_new (numbered_NoDup _)) as C. cbn [app] in C.
  assert (Hn : forall i, i <= k -> nth_error (numbered (Datatypes.S k)) i = Some [[N.of_nat i]]).
  { intros i Hi. unfold numbered. rewrite nth_error_map. rewrite (nth_error_nth' _ 0) by (rewrite seq_length; lia). rewrite seq_nth by lia. reflexivity. }
  pose proof (Hn 0 ltac:(lia)) as H0. pose proof (Hn k ltac:(lia)) as Hk.
  split. { rewrite Ek. discriminate. } split. { eapply nth_error_In; exact H0. } split. { eapply nth_error_In; exact Hk. }
  split. { exact (counted_get C H0). } rewrite (counted_get C Hk). unfold as_u32. rewrite Ek. now rewrite N.mod_same.
Qed.
