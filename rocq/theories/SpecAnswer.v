(** When the autocomplete popup has something to offer. *)
From Verif Require Import Base Str Grid Node Focus Edit Caret Autocomplete Editor Spec SpecMove.

(** The caret is a bar, and a rule is matched by two or more of the symbols before it. *)
Definition offered {SyntaxNode} (env : Env SyntaxNode) (ed : MathEditor SyntaxNode) : Prop :=
  exists q row rule ms, ed_caret ed = collapsed q /\ row_get (ed_input ed) (mp_row q) = Some row /\
    In rule (env_rules env) /\ rule_matches rule row (mp_offset q) 2 = Ok ms /\ ms <> [].
