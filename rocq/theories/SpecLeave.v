(** What it means to leave a completely typed token. *)
From Verif Require Import Base Str Grid Node Focus Edit Caret Autocomplete Editor Spec SpecAuto SpecMove SpecEditor SpecSelect SpecRemove.
Set Implicit Arguments.
Unset Strict Implicit.

(** The [n] nodes in front of the caret at [q] spell the text of this rule, which is the one that is selected. *)
Definition completed {SyntaxNode} (env : Env SyntaxNode) (ed : MathEditor SyntaxNode) (q : MinPos) (n : nat) (rule : AutocompleteRule) : Prop :=
  exists ed' results m, get_autocomplete env ed = Ok (ed', Some results) /\ nth_error (ar_matches results) (ar_selected results) = Some m /\
    m_rule_match_length m = byte_len (rule_parser (m_rule m)) /\ ed_caret ed = collapsed q /\ m_input_match_length m = n /\ m_rule m = rule.

(** The operation is to put the caret from [q] to [t] and to change nothing: arrow keys, clicks, and Delete where it
    neither removes a symbol nor dissolves a container. *)
Inductive goes (cfg : Cfg) (doc : InputRow) (q : MinPos) : Op -> MinPos -> Prop :=
| goes_next d t : follows d doc q t -> ~ underflows cfg d q -> goes cfg doc q (OpMoveCaret d MChar) t
| goes_edge d : d = DLeft \/ d = DRight -> q = edge d doc -> goes cfg doc q (OpMoveCaret d MChar) q
| goes_up t : up_from doc (mp_row q) t -> goes cfg doc q (OpMoveCaret DUp MChar) (match t with Some t => t | None => q end)
| goes_down t : down_from doc (mp_row q) t -> goes cfg doc q (OpMoveCaret DDown MChar) (match t with Some t => t | None => q end)
| goes_click t m : valid_pos doc t -> goes cfg doc q (OpStartSelection t m) t
| goes_delete t : follows DRight doc q t -> ~ symbol_beside doc HRight q -> (forall p i k, ~ dissolves doc HRight q p i k) ->
    goes cfg doc q (OpRemoveAtCaret RemoveRight) t.

(** Where the token of [n] nodes in front of [q] starts. *)
Definition token_start (q : MinPos) (n : nat) : nat := mp_offset q - n.

(** The token stays as it is: [t] is still within it or at one of its ends; or it is longer than the part of the row in front of
    it, and the symbol of the token with the number of the nodes in front of it, if there is one, begins with an ASCII character. *)
Definition token_kept (doc : InputRow) (q : MinPos) (n : nat) (t : MinPos) : Prop :=
  pos_in_range t (token q n) \/
  token_start q n < n /\ forall i s, token_start q n = S i -> node_get doc (mp_row q) (token_start q n + i) = Some (Symbol s) -> ascii_start s.
(** It is corrected: it is left, it is as long as the part of the row in front of it, and the code can track [t]. *)
Definition token_corrected (q : MinPos) (n : nat) (t : MinPos) : Prop :=
  ~ pos_in_range t (token q n) /\ token_start q n = n /\ (mp_row q = [] -> mp_row t = []).
(** The code panics. *)
Definition token_panics (doc : InputRow) (q : MinPos) (n : nat) (t : MinPos) : Prop :=
  ~ pos_in_range t (token q n) /\
  (n < token_start q n \/
   token_start q n = n /\ mp_row q = [] /\ mp_row t <> [] \/
   token_start q n < n /\ exists i s, token_start q n = S i /\ node_get doc (mp_row q) (token_start q n + i) = Some (Symbol s) /\ ~ ascii_start s).

(** Where the code looks for a token at the end of the first cell of the container [i] that dissolved in cell [j0] of node [i0]: it confuses the two. *)
Definition looked_in (p0 : RowIndices) (i0 j0 i : nat) : RowIndices := p0 ++ [(if i <? i0 then i0 - 1 else i0, j0); (i, 0)].
(** What it looks at there *)
Definition looked_at (q : MinPos) (n : nat) (row : InputRow) : list InputNode := firstn (token_start q n) (firstn n (skipn (token_start q n) row)).
(** It finds something to look at, and the search does not panic. *)
Definition looks (rule : AutocompleteRule) (q : MinPos) (n : nat) (row : option InputRow) : Prop :=
  exists l, row = Some l /\ mp_offset q <= length l /\ token_start q n <= n /\
  forall b s, looked_at q n l = b ++ [Symbol s] -> ascii_start s \/ s <> [] /\ forall a c, rule_parser rule <> a ++ s ++ c.
(** It finds the text of the rule there. *)
Definition finds (rule : AutocompleteRule) (q : MinPos) (n : nat) (row : option InputRow) : Prop :=
  exists l b syms last, row = Some l /\ looked_at q n l = b ++ map Symbol (syms ++ [last]) /\ rule_parser rule = concat (syms ++ [last]) /\ byte_len last = 1.
