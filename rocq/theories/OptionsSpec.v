(** What is asked of the builders of options, said of the list of calls alone. *)
From Verif Require Export Options TurtleSpec.

(** [v] is what the last of the calls that say anything about a setting says, and the default
    if none does. *)
Definition last_said {C A : Type} (says : C -> option A) (default : A) (l : list C) (v : A) : Prop :=
  (exists before c after, l = before ++ c :: after /\ says c = Some v /\ forall c', In c' after -> says c' = None) \/
  ((forall c, In c l -> says c = None) /\ v = default).

(** What a call says about each setting of the Turtle writer, by its name. *)
Definition says_base (c : ttl_call) : option (option str) :=
  match c with TWithIdBase i | TSetIdBase i => Some (Some i) | TUnsetIdBase => Some None | _ => None end.
Definition says_nest (c : ttl_call) : option bool :=
  match c with TWithNested => Some true | TWithoutNested => Some false | TSetNest b => Some b | _ => None end.
Definition says_sparql (c : ttl_call) : option bool :=
  match c with TWithSparql => Some true | TSetSparql b => Some b | _ => None end.
Definition says_intellij (c : ttl_call) : option bool :=
  match c with TWithIntellij => Some true | TSetIntellij b => Some b | _ => None end.
Definition says_type_line (c : ttl_call) : option bool :=
  match c with TSetTypeLine b => Some b | _ => None end.
Definition says_convert (c : ttl_call) : option (option str) :=
  match c with TSetConvertTo i => Some (Some i) | TUnsetConvertTo => Some None | _ => None end.
Definition says_padding (c : ttl_call) : option bool :=
  match c with TWithPadding b | TSetPadding b => Some b | _ => None end.
(** The width by the names of the calls, and with the width the IntelliJ style brings along. *)
Definition says_width (c : ttl_call) : option N :=
  match c with TWithIndentWidth n | TSetIndentWidth n => Some n | _ => None end.
Definition says_width_or_style (c : ttl_call) : option N :=
  match c with TWithIntellij => Some 4 | _ => says_width c end.

Definition says_blank_shape (c : dot_call) : option str := match c with DBlankShape s => Some s | _ => None end.
Definition says_blank_color (c : dot_call) : option str := match c with DBlankColor s => Some s | _ => None end.
Definition says_blank_labels (c : dot_call) : option bool := match c with DBlankLabels b => Some b | _ => None end.
Definition says_iri_shape (c : dot_call) : option str := match c with DIriShape s => Some s | _ => None end.
Definition says_iri_color (c : dot_call) : option str := match c with DIriColor s => Some s | _ => None end.
Definition says_literal_shape (c : dot_call) : option str := match c with DLiteralShape s => Some s | _ => None end.
Definition says_literal_color (c : dot_call) : option str := match c with DLiteralColor s => Some s | _ => None end.
Definition says_node_prefix (c : dot_call) : option str := match c with DNodePrefix s => Some s | _ => None end.

Definition says_style (c : xml_call) : option xml_style :=
  match c with XCallFlat => Some XFlat | XCallStriped => Some XStriped | _ => None end.
Definition says_pretty (c : xml_call) : option bool :=
  match c with XCallPretty => Some true | XCallPlain => Some false | _ => None end.
Definition says_encoding (c : xml_call) : option str := match c with XCallEncoding s => Some s | _ => None end.

(** The options a program can get. *)
Definition ttl_made (l : list ttl_call) (o : ttl_options) : Prop := ttl_calls_on l ttl_default_options = Ret o.
