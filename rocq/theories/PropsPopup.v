(** Moving in the list of suggestions (C48). *)
From Coq Require Import String.
From Verif Require Import Base Str Grid Node Focus Edit Caret Autocomplete Editor Rules Spec SpecAuto SpecMove SpecPopup BaseFacts
  TreeFacts AutoFacts PopupFacts PopupExact Samples PropsAuto.
Open Scope list_scope.
Open Scope nat_scope.

(** All lists, also those in which rules occur several times: each key goes to the next entry and from there to
    the first one of the same rule. *)
Theorem C48_keys : forall (SyntaxNode : Type) (env : Env SyntaxNode) ds ed ed1 r, get_autocomplete env ed = Ok (ed1, Some r) ->
  exists ed2 ed3 r', run env ed (map OpMoveInAutocomplete ds) = Ok ed2 /\ get_autocomplete env ed2 = Ok (ed3, Some r') /\
    ar_matches r' = ar_matches r /\ leads (map m_rule (ar_matches r)) ds (ar_selected r) (ar_selected r').
Proof. exact @presses. Qed.
Print Assumptions C48_keys.
(** So from the first entry, or any other one before the first repetition, exactly the entries before the first
    repetition can be selected. *)
Theorem C48_exact : forall (SyntaxNode : Type) (env : Env SyntaxNode) ed ed1 r i, get_autocomplete env ed = Ok (ed1, Some r) ->
  NoDup (firstn (S (ar_selected r)) (map m_rule (ar_matches r))) ->
  (exists ds ed2 ed3 r', run env ed (map OpMoveInAutocomplete ds) = Ok ed2 /\ get_autocomplete env ed2 = Ok (ed3, Some r') /\ ar_selected r' = i) <->
  i < length (ar_matches r) /\ NoDup (firstn (S i) (map m_rule (ar_matches r))).
Proof.
  intros SyntaxNode env ed ed1 r i H Hn. pose proof (popup_selected H) as Hlt. pose proof (@leads_iff _ (map m_rule (ar_matches r)) (ar_selected r) i) as L.
  rewrite map_length in L. specialize (L Hlt Hn). rewrite <- L. split.
  - intros (ds&ed2&ed3&r'&H1&H2&<-). exists ds. destruct (presses ds H) as (ed4&ed5&r2&H3&H4&_&H5). congruence.
  - intros (ds&Hl). destruct (presses ds H) as (ed2&ed3&r'&H1&H2&_&H3). exists ds, ed2, ed3, r'. split; [exact H1|]. split; [exact H2|]. exact (leads_unique H3 Hl).
Qed.
Print Assumptions C48_exact.
(** After "infin" there are four entries; the last one is a repetition. *)
Example C48_exact_case : exists ed1 r, get_autocomplete (sample_env default_rules) (editor_with (typed "infin") (here 5)) = Ok (ed1, Some r) /\
  ar_selected r = 0 /\ length (ar_matches r) = 4 /\ NoDup (firstn 3 (map m_rule (ar_matches r))) /\ ~ NoDup (firstn 4 (map m_rule (ar_matches r))).
Proof.
  do 2 eexists. split; [vm_compute; reflexivity|]. split; [reflexivity|]. split; [reflexivity|]. split.
  - vm_compute. repeat constructor; vm_compute; intuition discriminate.
  - vm_compute. intros H. inversion H as [|? ? H1 H2]; subst. inversion H2 as [|? ? H3 H4]; subst. inversion H4 as [|? ? H5 _]; subst. first [apply H1; vm_compute; tauto|apply H3; vm_compute; tauto|apply H5; vm_compute; tauto].
Qed.
