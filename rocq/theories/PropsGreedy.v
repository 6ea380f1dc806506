(** The greedy choice (C78). *)
From Verif Require Import Base Greedy BaseFacts.

Section Greedy.
Variables O E : Type.
Notation Attempt := (Attempt O E).
Implicit Types (x y best : Attempt) (l : list Attempt).
(** [x] is at least as good as [y]: it is a longer match, or [y] is none *)
Definition as_good x y : Prop :=
  match snd y, fst y with
  | b, inl _ => exists o a, x = (inl o, a) /\ b <= a
  | _, inr _ => True
  end.
Lemma max_spec l : forall best, (exists l1 l2, best :: l = l1 ++ max_by (@compare_attempts O E) best l :: l2 /\ (forall y, In y l2 -> ~ as_good y (max_by (@compare_attempts O E) best l))) /\
  forall y, In y (best :: l) -> as_good (max_by (@compare_attempts O E) best l) y.
Proof.
  assert (R : forall x, as_good x x). { intros [[o|e] a]; unfold as_good; cbn; [eauto|exact I]. }
  assert (T : forall x y z, as_good x y -> as_good y z -> as_good x z).
  { intros [[o1|e1] a1] [[o2|e2] a2] [[o3|e3] a3]; unfold as_good; cbn; try (intros; exact I); try (intros _ (o&a&H&_); discriminate H); try (intros (o&a&H&_); discriminate H).
    - intros (o&a&H&L) (o'&a'&H'&L'). injection H as <- <-. injection H' as <- <-. exists o1, a1. split; [reflexivity|]. lia. }
  assert (C : forall x y, match compare_attempts x y with Gt => as_good x y /\ ~ as_good y x | _ => as_good y x end).
  { intros [[o1|e1] a1] [[o2|e2] a2]; unfold as_good; cbn; try exact I.
    - destruct (Nat.compare_spec a1 a2); [exists o2, a2; split; [reflexivity|lia]|exists o2, a2; split; [reflexivity|lia]|]. split; [exists o1, a1; split; [reflexivity|lia]|]. intros (o&a&H1&H2). injection H1 as <- <-. lia.
    - split; [exact I|]. intros (o&a&H&_). discriminate H. }
  induction l as [|x l IH]; intros best; cbn [max_by].
  - split; [exists [], []; split; [reflexivity|intros y []]|]. intros y [<-|[]]. apply R.
  - specialize (C best x). destruct (compare_attempts best x).
    + destruct (IH x) as [(l1&l2&El&Hl) Hm]. split; [exists (best :: l1), l2; split; [cbn [app]; now f_equal|exact Hl]|].
      intros y [<-|Hy]; [|now apply Hm]. eapply T; [apply Hm; left; reflexivity|exact C].
    + destruct (IH x) as [(l1&l2&El&Hl) Hm]. split; [exists (best :: l1), l2; split; [cbn [app]; now f_equal|exact Hl]|].
      intros y [<-|Hy]; [|now apply Hm]. eapply T; [apply Hm; left; reflexivity|exact C].
    + destruct C as [C1 C2]. destruct (IH best) as [(l1&l2&El&Hl) Hm]. split.
      * destruct l1 as [|z l1]; cbn [app] in El; injection El as E1 E2.
        -- exists [], (x :: l2). rewrite <- E1. cbn [app]. split; [do 2 f_equal; exact E2|]. intros y [<-|Hy]; [exact C2|]. rewrite E1. now apply Hl.
        -- exists (best :: x :: l1), l2. cbn [app]. split; [do 2 f_equal; exact E2|exact Hl].
      * intros y [<-|[<-|Hy]]; [apply Hm; left; reflexivity| |apply Hm; right; exact Hy]. eapply T; [apply Hm; left; reflexivity|exact C1].
Qed.
End Greedy.

(** * C78: the greedy choice takes the longest match *)
(** The result is that of a parser whose match is at least as long as all others, the last one of these. It is an error only if
    all parsers fail. *)
Theorem C78_longest : forall O E (nothing : E) (parsers : list (nat -> Attempt O E)) before, parsers <> [] ->
  exists l1 parser l2, parsers = l1 ++ parser :: l2 /\ fst (greedy_parse nothing parsers before) = fst (parser before) /\
    (forall p, In p parsers -> as_good _ _ (parser before) (p before)) /\ (forall p, In p l2 -> ~ as_good _ _ (p before) (parser before)).
Proof.
  intros O E nothing parsers before Hne. destruct parsers as [|p0 ps]; [now destruct Hne|]. unfold greedy_parse. cbn [map].
  destruct (max_spec O E (map (fun parser => parser before) ps) (p0 before)) as [(a1&a2&Ea&Ha) Hm]. change (p0 before :: map (fun parser => parser before) ps) with (map (fun parser => parser before) (p0 :: ps)) in Ea.
  apply map_eq_app in Ea as (l1&l2&Ep&E1&E2). apply map_eq_cons in E2 as (p&l2'&El&E2&E3). subst l2. exists l1, p, l2'. split; [exact Ep|]. cbn [fst]. rewrite E2. split; [reflexivity|]. split.
  - intros q Hq. apply Hm. change (In (q before) (map (fun parser => parser before) (p0 :: ps))). now apply in_map with (f := fun parser => parser before).
  - intros q Hq. apply Ha. rewrite <- E3. now apply in_map with (f := fun parser => parser before).
Qed.
Print Assumptions C78_longest.
(** An empty choice cannot be made. *)
Theorem C78_empty : forall O E (nothing : E) (parsers : list (nat -> Attempt O E)), greedy_choice nothing parsers = Panic PAssert <-> parsers = [].
Proof. intros O E nothing [|p l]; unfold greedy_choice; cbn; split; intros H; try reflexivity; discriminate H. Qed.
Print Assumptions C78_empty.
(** Parsing goes on behind the match if the last parser is the one that is taken. *)
Theorem C78_offset_partial : forall O E (nothing : E) (parsers : list (nat -> Attempt O E)) p before,
  (forall q, In q parsers -> as_good _ _ (p before) (q before)) -> greedy_parse nothing (parsers ++ [p]) before = p before.
Proof.
  intros O E nothing parsers p before H. destruct (C78_longest O E nothing (parsers ++ [p]) before) as (l1&q&l2&El&Ef&Hq&Hl); [now destruct parsers|].
  assert (Eq : q = p). { destruct l2 as [|z l2]; [apply app_inj_tail in El as [_ <-]; reflexivity|]. exfalso. assert (Hp : In p (z :: l2)). { change (l1 ++ q :: z :: l2) with (l1 ++ [q] ++ z :: l2) in El. rewrite app_assoc in El. destruct (@exists_last _ (z :: l2)) as (l'&w&Ew); [discriminate|]. rewrite Ew in El |- *. rewrite app_assoc in El. apply app_inj_tail in El as [_ <-]. apply in_or_app. right. now left. }
    apply (Hl p Hp). apply H. assert (Hin : In q (l1 ++ [q])) by (apply in_or_app; right; now left). destruct (@exists_last _ (z :: l2)) as (l'&w&Ew); [discriminate|]. rewrite Ew in El. change (l1 ++ q :: l' ++ [w]) with (l1 ++ (q :: l') ++ [w]) in El. rewrite app_assoc in El. apply app_inj_tail in El as [-> _]. apply in_or_app. right. now left. }
  subst q. rewrite (surjective_pairing (p before)), <- Ef. rewrite (surjective_pairing (greedy_parse nothing (parsers ++ [p]) before)) at 1. f_equal.
  unfold greedy_parse. rewrite map_app. cbn [map]. destruct parsers as [|p0 ps]; cbn [map app snd]; [reflexivity|]. now rewrite last_last.
Qed.
Print Assumptions C78_offset_partial.
(** In all cases parsing goes on where the last parser stopped, so it goes on behind the match exactly if the last parser stops where the
    match ends. *)
Theorem C78_offset_exact : forall O E (nothing : E) (parsers : list (nat -> Attempt O E)) p before,
  exists q, In q (parsers ++ [p]) /\ fst (greedy_parse nothing (parsers ++ [p]) before) = fst (q before) /\
  (snd (greedy_parse nothing (parsers ++ [p]) before) = snd (q before) <-> snd (p before) = snd (q before)).
Proof.
  intros O E nothing parsers p before. destruct (C78_longest O E nothing (parsers ++ [p]) before) as (l1&q&l2&El&Ef&_); [now destruct parsers|].
  exists q. split; [rewrite El; apply in_or_app; right; now left|]. split; [exact Ef|]. enough (Z : snd (greedy_parse nothing (parsers ++ [p]) before) = snd (p before)) by (rewrite Z; reflexivity).
  unfold greedy_parse. rewrite map_app. cbn [map]. destruct parsers as [|p0 ps]; cbn [map app snd]; [reflexivity|]. now rewrite last_last.
Qed.
Print Assumptions C78_offset_exact.
(** Otherwise it goes on at the place where the last parser stopped: here the match is 2 symbols long, but the input is behind the first
    one. *)
Definition matches (n : nat) : nat -> Attempt nat unit := fun before => (inl n, before + n).
Theorem C78_offset_refuted : fst (greedy_parse tt [matches 2; matches 1] 5) = inl 2 /\ snd (matches 2 5) = 7 /\ snd (greedy_parse tt [matches 2; matches 1] 5) = 6.
Proof. vm_compute. auto. Qed.
Print Assumptions C78_offset_refuted.
Example C78_case : (forall q, In q [matches 1; fun before => (inr tt, before + 3)] -> as_good _ _ (matches 2 4) (q 4)) /\
  greedy_parse tt [matches 1; (fun before => (inr tt, before + 3)); matches 2] 4 = (inl 2, 6).
Proof. split; [|reflexivity]. intros q [<-|[<-|[]]]; cbn; [|exact I]. exists 2, 6. split; [reflexivity|lia]. Qed.
