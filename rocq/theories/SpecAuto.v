(** Vocabulary for the properties of autocomplete. *)
From Verif Require Import Base Str Grid Node Focus Autocomplete.
Set Implicit Arguments.

(** The nodes in front of the caret end with the given symbols. *)
Definition ends_in_symbols (input : list InputNode) (caret : nat) (syms : list str) : Prop :=
  exists before, firstn caret input = before ++ map Symbol syms.

(** The text starts with a one-byte (ASCII) character. *)
Definition ascii_start (s : str) : Prop := exists c s', s = c :: s' /\ utf8_len c = 1.
(** A rule whose text is not empty and consists of ASCII characters. *)
Definition ascii_rule (r : AutocompleteRule) : Prop :=
  rule_parser r <> [] /\ forall c, In c (rule_parser r) -> utf8_len c = 1.

(** The order of the popup. *)
Definition by_length (a b : RuleMatch) : Prop := m_rule_match_length a <= m_rule_match_length b.
Definition of_length (k : nat) (m : RuleMatch) : bool := m_rule_match_length m =? k.

(** The bytes of a character in UTF-8: the first one says how many there are, the others have six bits each. *)
Definition utf8 (c : N) : list N :=
  let rest k := (128 + (c / 64 ^ k) mod 64)%N in
  if (c <? 128)%N then [c]
  else if (c <? 2048)%N then [(192 + c / 64)%N; rest 0%N]
  else if (c <? 65536)%N then [(224 + c / 4096)%N; rest 1%N; rest 0%N]
  else [(240 + c / 262144)%N; rest 2%N; rest 1%N; rest 0%N].
