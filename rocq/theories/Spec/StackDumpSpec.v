(** What a stack dump should say. *)
From Coq Require Import Ascii String List ZArith NArith Bool.
From Verif.Base Require Import Bytes.
Import ListNotations.
Local Open Scope list_scope.

(** [inner] is the last bracketed part of the text [f] *)
Definition last_brackets (f inner : str) : Prop :=
  exists front back, f = front ++ lit "(" ++ inner ++ lit ")" ++ back /\
    ~ In "("%char inner /\ ~ In "("%char back /\ ~ In ")"%char back.
(** [f] has no pair of brackets *)
Definition no_brackets (f : str) : Prop := ~ In "("%char f \/ ~ In ")"%char f.
Definition occurs (p f : str) : Prop := exists a b, f = a ++ p ++ b.

(** Frames that name a symbol and an offset.
    Linux: "module(symbol+offset) [address]"; macOS: "number module address _symbol + offset" *)
Inductive symbol_frame (f symbol offset : str) : Prop :=
| sf_linux : last_brackets f (symbol ++ lit "+" ++ offset) -> ~ In "+"%char symbol ->
    symbol <> [] -> offset <> [] -> symbol_frame f symbol offset
| sf_macos front : no_brackets f -> f = front ++ lit " " ++ symbol ++ lit " + " ++ offset ->
    (exists r, symbol = lit "_" ++ r) -> offset <> [] ->
    ~ In "+"%char front -> ~ In "+"%char symbol -> ~ occurs (lit " _") (symbol ++ lit " + " ++ offset) ->
    symbol_frame f symbol offset.

(** Frames that do not: no plus sign; brackets with nothing, or only an offset or symbol, in them; no brackets
    and no symbol *)
Inductive opaque_frame (f : str) : Prop :=
| of_no_plus : ~ In "+"%char f -> opaque_frame f
| of_brackets inner : last_brackets f inner -> ~ In "+"%char inner -> opaque_frame f
| of_no_symbol offset : last_brackets f (lit "+" ++ offset) -> opaque_frame f
| of_no_offset symbol : last_brackets f (symbol ++ lit "+") -> ~ In "+"%char symbol -> opaque_frame f
| of_no_underscore : no_brackets f -> ~ occurs (lit " _") f -> opaque_frame f.

(** the line for frame number i: what is shown of it is [shown] *)
Definition frame_line (i : nat) (shown : str) : str :=
  [TAB] ++ lit "stack dump [" ++ to_string (Z.of_nat i) ++ lit "]  " ++ shown ++ [NL].

(** lines numbered from [i] on *)
Fixpoint number_from (i : nat) (l : list str) : str :=
  match l with [] => [] | x :: r => frame_line i x ++ number_from (S i) r end.

(** the frames that make the code throw: no pair of brackets, a symbol, and the first plus sign is the
    last character *)
Definition bad_frame (f : str) : Prop :=
  no_brackets f /\ occurs (lit " _") f /\ exists p, f = p ++ lit "+" /\ ~ In "+"%char p.
