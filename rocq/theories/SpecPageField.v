(** A page with a row of symbols as a text field (C96): what the events do to the field of SpecField.v. *)
From Coq Require Import String.
From Verif Require Import Base Str Grid Node Focus Edit Caret Autocomplete Editor NameMap Syntax Pratt Grammar SyntaxFind Render Layout Json FromMathML
  Spec SpecMove SpecEditor SpecSafety SpecLeave SpecField SpecDom SpecRender Component SpecComponent SpecEvent PropsRender.
Open Scope list_scope.
Open Scope nat_scope.
Set Implicit Arguments.

(** The field, the keys that wait for the timer, whether the button is held, and the clipboard *)
Record PageField := mkPageField { pf_session : Session; pf_tasks : list InputType; pf_down : bool; pf_clipboard : option str }.
Definition pf_text (s : PageField) : list str := f_text (s_field (pf_session s)).
(** The selected part of the text *)
Definition f_selected (f : Field) : list str := firstn (f_hi f - f_lo f) (skipn (f_lo f) (f_text f)).
(** The text that nodes are, if they are symbols and none is empty *)
Fixpoint symbols_of (nodes : list InputNode) : option (list str) :=
  match nodes with
  | [] => Some []
  | Symbol s :: nodes => if str_eqb s [] then None else option_map (cons s) (symbols_of nodes)
  | Container _ _ :: _ => None
  end.

Section PageField.
Variable cfg : Cfg.
Variable xs xc : N -> bool.
Variable segment : str -> list str.
Variable fresh : bool.
(** The offset in the text that is drawn at a point *)
Definition click (t : list str) (p : Point) : option nat :=
  match draw xs xc (map Symbol t) with
  | Ok x => match get_layout_position (to_bounds p) (to_place p) x with Ok ([], offset) => Some offset | _ => None end
  | _ => None
  end.
(** The operations of the editor (SpecField.v) *)
Definition pf_run (s : PageField) (ops : list Op) : option PageField :=
  match field_run cfg fresh [] (pf_session s) ops with Some f => Some (mkPageField f (pf_tasks s) (pf_down s) (pf_clipboard s)) | None => None end.
(** The operations at the offset that is drawn at a point *)
Definition pf_at (s : PageField) (p : Point) (ops : MinPos -> list Op) : option PageField :=
  match click (pf_text s) p with Some k => pf_run s (ops (mkMinPos [] k)) | None => None end.
Definition set_pf_tasks (l : list InputType) (s : PageField) : PageField := mkPageField (pf_session s) l (pf_down s) (pf_clipboard s).
Definition set_pf_down (b : bool) (s : PageField) : PageField := mkPageField (pf_session s) (pf_tasks s) b (pf_clipboard s).
(** What a copy puts into the clipboard *)
Definition pf_copy (s : PageField) : PageField :=
  mkPageField (pf_session s) (pf_tasks s) (pf_down s) (Some (serialize_input_nodes (map Symbol (f_selected (s_field (pf_session s)))))).
(** Typing the text of [data] *)
Definition pf_insert (s : PageField) (vs : list str) : option PageField :=
  if forallb (fun x => negb (str_eqb x [])) vs then pf_run s [OpInsertAtCaret vs] else None.
(** What a key does when the timer comes: math-editor.ts:264-297 *)
Definition pf_task (s : PageField) (t : InputType) : option PageField :=
  match t with
  | DeleteBackward => pf_run s [OpRemoveAtCaret RemoveLeft]
  | DeleteForward => pf_run s [OpRemoveAtCaret RemoveRight]
  | InsertText (Some data) => pf_insert s (segment data)
  | InsertText None | OtherInput => Some s
  end.
Fixpoint pf_run_tasks (s : PageField) (l : list InputType) : option PageField :=
  match l with
  | [] => Some s
  | t :: l => match pf_task s t with Some s => pf_run_tasks s l | None => None end
  end.
(** [None] if the field does not know what the event does: an element that gets new content, something that is not text and
    is pasted, and what the editor is not known to survive. *)
Definition pf_event (s : PageField) (e : Event) : option PageField :=
  match e with
  | EvKey k => match key_op k with Some op => pf_run s [op] | None => Some s end
  | EvBeforeInput t => Some (set_pf_tasks (pf_tasks s ++ [t]) s)
  | EvTimer => pf_run_tasks (set_pf_tasks [] s) (pf_tasks s)
  | EvCopy true => Some (pf_copy s)
  | EvCut true => pf_run (pf_copy s) [OpRemoveAtCaret RemoveRange]
  | EvPaste (Some (json, text)) =>
      match deserialize_input_nodes 4294967295 (if str_eqb json [] then text else json) with
      | Some nodes => match symbols_of nodes with Some vs => pf_run s [OpInsertAtCaret vs] | None => None end
      | None => None
      end
  | EvPointerDown true p => pf_at (set_pf_down true s) p (fun pos => [OpStartSelection pos MChar])
  | EvPointerUp true p => pf_at (set_pf_down false s) p (fun pos => [OpExtendSelection pos; OpFinishSelection])
  | EvMouseDown detail p =>
      if pf_down s && ((detail =? 2) || (detail =? 3)) then pf_at s p (fun pos => [OpStartSelection pos (if detail =? 2 then MWord else MLine)]) else Some s
  | EvPointerMove true p => if pf_down s then pf_at s p (fun pos => [OpExtendSelection pos]) else Some s
  | EvConnect _ | EvAttribute _ => None
  | EvCopy false | EvCut false | EvPaste None | EvPointerDown false _ | EvPointerUp false _ | EvPointerMove false _ | EvDisconnect => Some s
  end.
Fixpoint pf_events (s : PageField) (l : list Event) : option PageField :=
  match l with
  | [] => Some s
  | e :: l => match pf_event s e with Some s => pf_events s l | None => None end
  end.
End PageField.

Section Along.
Variable env : Env SyntaxNode.
Variable renderers : Renderers.
Variable normalize : str -> str.
Variable segment : str -> list str.
(** No completely typed token is corrected by any of the operations that the events ask for. *)
Fixpoint events_alone (c : Component) (l : list Event) : Prop :=
  match l with
  | [] => True
  | e :: l => (forall ed, co_editor c = Some ed -> all_along env (leaves_alone env) ed (event_calls normalize segment c e)) /\
      events_alone (fst (dispatch env renderers normalize segment e c)) l
  end.
(** None of the handlers throws. *)
Fixpoint events_quiet (c : Component) (l : list Event) : Prop :=
  match l with
  | [] => True
  | e :: l => snd (dispatch env renderers normalize segment e c) = Ok tt /\ events_quiet (fst (dispatch env renderers normalize segment e c)) l
  end.
End Along.
(** The element shows the field: in its document and caret, on the screen, and in what it remembers. *)
Definition shows_page (env : Env SyntaxNode) (renderers : Renderers) (s : PageField) (c : Component) : Prop :=
  (exists ed, co_editor c = Some ed /\ ed_input ed = map Symbol (pf_text s) /\ ed_caret ed = field_caret [] (s_field (pf_session s))) /\
  up_to_date env renderers c /\ co_tasks c = pf_tasks s /\ co_pointer_down c = pf_down s /\ co_clipboard c = pf_clipboard s.
