(** Printing, names (C31, C32). *)
From Coq Require Import String.
From Verif Require Import Base Str Grid Node Spec Print NameMap BaseFacts PrintFacts NameMapFacts Samples.
Open Scope list_scope.
Open Scope nat_scope.

(** * C31: the printed form of a document is unambiguous *)
Theorem C31_injective : forall a b s, print_row a = Ok s -> print_row b = Ok s -> a = b.
Proof. exact print_injective. Qed.
Print Assumptions C31_injective.
(** Well-formed documents can be printed. *)
Theorem C31_total : forall doc, wf_row doc -> exists s, print_row doc = Ok s.
Proof. exact print_total. Qed.
Print Assumptions C31_total.
Example C31_case : print_row [sym "a"; fraction [sym """"; sym "\"] [sub []]] = Ok (lit "(row ""a"" (frac 1x2 (row ""\"""" ""\\"") (row (sub 1x1 (row)))))") /\
  exists s, print_row sample = Ok s /\ Datatypes.length s = 155.
Proof. split; [reflexivity|]. eexists. split; vm_compute; reflexivity. Qed.

(** * C32: node names and node ids correspond one to one *)
(** Ids stay the same, and are what [add] returned. *)
Theorem C32_stable : forall names more name, In name names ->
  name_map_get (add_all (add_all name_map_new names) more) name = name_map_get (add_all name_map_new names) name.
Proof. exact ids_stable. Qed.
Print Assumptions C32_stable.
Theorem C32_returned : forall names name, let m := add_all name_map_new names in
  name_map_get (fst (name_map_add m name)) name = Some (snd (name_map_add m name)).
Proof. exact ids_returned. Qed.
Print Assumptions C32_returned.
Theorem C32_known : forall names name, In name names <-> exists id, name_map_get (add_all name_map_new names) name = Some id.
Proof. exact ids_known. Qed.
Print Assumptions C32_known.
(** Missing: more than 2^32 different names. *)
Theorem C32_inverse_partial : forall names,
  (forall l, NoDup l -> incl l names -> (N.of_nat (length l) <= 2 ^ 32)%N) ->
  let m := add_all name_map_new names in
  (forall name id, name_map_get m name = Some id <-> name_map_get_reverse m id = Some name) /\
  (forall a b id, name_map_get m a = Some id -> name_map_get m b = Some id -> a = b).
Proof. exact names_and_ids. Qed.
Print Assumptions C32_inverse_partial.
(** Only with more names, where [len() as u32] wraps around, two names get the same id. *)
Theorem C32_refuted : exists names a b id, a <> b /\ In a names /\ In b names /\
  name_map_get (add_all name_map_new names) a = Some id /\ name_map_get (add_all name_map_new names) b = Some id.
Proof. exact too_many_names. Qed.
Print Assumptions C32_refuted.
Example C32_case : let names := [[lit "Core"; lit "Add"]; [lit "Core"; lit "Sub"]; [lit "Core"; lit "Add"]] in
  (forall l, NoDup l -> incl l names -> (N.of_nat (length l) <= 2 ^ 32)%N) /\
  let m := add_all name_map_new names in
  name_map_get m [lit "Core"; lit "Sub"] = Some 1%N /\ name_map_get_reverse m 0%N = Some [lit "Core"; lit "Add"] /\ name_map_get_reverse m 2%N = None.
Proof.
  cbn zeta. split; [|vm_compute; auto]. intros l Nd Hi. apply (NoDup_incl_length Nd) in Hi. cbn in Hi. lia.
Qed.
