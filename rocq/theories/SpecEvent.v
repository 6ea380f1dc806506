(** What every event of the element asks of the editor. *)
From Coq Require Import String.
From Verif Require Import Base Str Grid Node Focus Edit Caret Autocomplete Editor NameMap Syntax SyntaxFind Render Layout FromMathML Component SpecComponent.
Open Scope list_scope.
Open Scope nat_scope.
Set Implicit Arguments.

Section Calls.
Variable env : Env SyntaxNode.
Variable normalize : str -> str.
Variable segment : str -> list str.
(** The position that is shown at a point *)
Definition shown_at (c : Component) (p : Point) : option MinPos :=
  match get_layout_position (to_bounds p) (to_place p) (co_result c) with Ok (row, offset) => Some (mkMinPos row offset) | Panic _ => None end.
(** Drawing the caret of an element in a page asks where it is. *)
Definition caret_calls (connected : bool) : list Op := if connected then [OpGetCaret] else [].
(** Drawing everything asks for the syntax tree, and twice for the caret. *)
Definition redraw_calls (connected : bool) : list Op := OpGetSyntaxTree :: caret_calls connected ++ caret_calls connected.
Definition at_point (c : Component) (p : Point) (calls : MinPos -> list Op) : list Op := match shown_at c p with Some pos => calls pos | None => [] end.
Definition load_calls (c : Component) (connected : bool) (mathml : option Xml) : list Op :=
  match mathml with
  | Some x => match from_element normalize segment x with
              | Ok (nodes, _) => OpSpliceAtRange (mkMinRange [] (fst (syn_range (co_tree c))) (snd (syn_range (co_tree c)))) nodes :: redraw_calls connected
              | Panic _ => []
              end
  | None => []
  end.
Definition event_calls (c : Component) (e : Event) : list Op :=
  let redraw := redraw_calls (co_connected c) in
  match e with
  | EvKey k => match key_op k with Some op => op :: redraw | None => redraw end
  | EvTimer => flat_map (fun t => match task_op segment t with Some op => op :: redraw | None => [] end) (co_tasks c)
  | EvCopy true => [OpCopy]
  | EvCut true => OpCopy :: OpRemoveAtCaret RemoveRange :: redraw
  | EvPaste (Some (json, text)) => OpPaste (if str_eqb json [] then text else json) true :: redraw
  | EvPointerDown true p => at_point c p (fun pos => OpStartSelection pos MChar :: redraw)
  | EvPointerUp true p => at_point c p (fun pos => OpExtendSelection pos :: OpFinishSelection :: caret_calls (co_connected c))
  | EvPointerMove true p => if co_pointer_down c then at_point c p (fun pos => OpExtendSelection pos :: caret_calls (co_connected c)) else []
  | EvMouseDown detail p =>
      if co_pointer_down c then
        at_point c p (fun pos => match detail with
                                 | 2 => OpStartSelection pos MWord :: caret_calls (co_connected c)
                                 | 3 => OpStartSelection pos MLine :: caret_calls (co_connected c)
                                 | _ => []
                                 end)
      else []
  | EvConnect x => load_calls c true x
  | EvAttribute x => load_calls c (co_connected c) x
  | _ => []
  end.
(** What becomes of an editor and of a handler that makes these calls: all of them are made; or it throws after some of them;
    or one of them panics, and then there is no editor any more. *)
Inductive outcome (ed : MathEditor SyntaxNode) (calls : list Op) : option (MathEditor SyntaxNode) -> Res unit -> Prop :=
| outcome_done ed' : run env ed calls = Ok ed' -> outcome ed calls (Some ed') (Ok tt)
| outcome_threw before after ed' k : calls = before ++ after -> run env ed before = Ok ed' -> outcome ed calls (Some ed') (Panic k)
| outcome_panicked before op after ed' k : calls = before ++ op :: after -> run env ed before = Ok ed' -> step env ed' op = Panic k -> outcome ed calls None (Panic k).

(** Everything that is remembered besides the editor and the screen *)
Definition pointer_after (c : Component) (e : Event) : bool :=
  match e with
  | EvPointerDown true p => match shown_at c p with Some _ => true | None => co_pointer_down c end
  | EvPointerUp true _ => false
  | _ => co_pointer_down c
  end.
Definition connected_after (c : Component) (e : Event) : bool :=
  match e with EvConnect _ => true | EvDisconnect => false | _ => co_connected c end.
Definition clipboard_after (c : Component) (e : Event) : option str :=
  match e with
  | EvCopy true | EvCut true =>
      match co_editor c with
      | Some ed => match step env ed OpCopy with Ok (_, OutText _ s) => Some s | _ => co_clipboard c end
      | None => co_clipboard c
      end
  | _ => co_clipboard c
  end.
(** A timer handles all that waits; what throws is taken out nevertheless, and what comes after it waits on. *)
Definition tasks_after (c : Component) (e : Event) (r : Res unit) (l : list InputType) : Prop :=
  match e with
  | EvBeforeInput t => l = co_tasks c ++ [t]
  | EvTimer => match r with Ok _ => l = [] | Panic _ => exists handled t, co_tasks c = handled ++ t :: l end
  | _ => l = co_tasks c
  end.
End Calls.

(** The primary button is held after these events, if it was before them. *)
Fixpoint held (before : bool) (l : list Event) : bool :=
  match l with
  | [] => before
  | EvPointerDown true _ :: l => held true l
  | EvPointerUp true _ :: l => held false l
  | _ :: l => held before l
  end.
(** The operations that the element uses; the others cannot be reached from a page. *)
Definition used_by_element (op : Op) : Prop :=
  match op with
  | OpSelectWithCaret _ _ | OpSelectAll | OpOpenAutocomplete | OpFinishAutocomplete _ | OpMoveInAutocomplete _ | OpPaste _ false => False
  | _ => True
  end.
