(** The stack dump.  Source: src/crashhandler_unix.cpp:136-190, src/logcapture.cpp:51-72.
    backtrace, backtrace_symbols and the demangler are parameters: [frames] are the texts messages[0..size)
    (C strings, so without NUL); None = backtrace_symbols returned null; [demangle] answers Some
    if the status is 0. *)
From Coq Require Import Ascii String List ZArith NArith Bool.
From Verif.Base Require Import Bytes.
Import ListNotations.
Local Open Scope list_scope.

(** s.rfind(p) for a non-empty p: index of the last occurrence; helper of this model, no source of its own *)
Fixpoint last_sub_from (p s : str) (i : nat) : option nat :=
  match s with
  | [] => None
  | _ :: r =>
      match last_sub_from p r (S i) with
      | Some k => Some k
      | None => if is_prefix p s then Some i else None
      end
  end.
(** std::string::rfind(p) *)
Definition rfind (s p : str) : N := match last_sub_from p s 0 with Some k => N.of_nat k | None => npos end.

(** crashhandler_unix.cpp:149-169: mangled name and offset (both empty if not recognised); None = std::out_of_range *)
Definition parse_frame (strMessage : str) : option (str * str) :=
  let firstBracket := find_last_of strMessage (lit "(") in
  let secondBracket := find_last_of strMessage (lit ")") in
  if negb (firstBracket =? npos)%N && negb (secondBracket =? npos)%N then
    match substr strMessage (sz (firstBracket + 1)) (sz_sub (sz_sub secondBracket firstBracket) 1) with
    | None => None
    | Some betweenBrackets =>
        let plusSign := find_first_of betweenBrackets (lit "+") in
        if negb (plusSign =? npos)%N then
          match substr betweenBrackets 0 plusSign, substr betweenBrackets (sz (plusSign + 1)) npos with
          | Some mangled_name, Some offset => Some (mangled_name, offset)
          | _, _ => None
          end
        else Some ([], [])
    end
  else
    let plusSign := find_first_of strMessage (lit "+") in
    let lastUnderscore := rfind strMessage (lit " _") in
    if negb (plusSign =? npos)%N && negb (lastUnderscore =? npos)%N then
      match substr strMessage (sz (lastUnderscore + 1)) (sz_sub (sz_sub plusSign lastUnderscore) 2) with
      | None => None
      | Some mangled_name =>
          match substr strMessage (sz (plusSign + 2)) npos with
          | None => None
          | Some offset => Some (mangled_name, offset)
          end
      end
    else Some ([], []).

(** std::string::empty *)
Definition is_empty (s : str) : bool := match s with [] => true | _ => false end.

(** crashhandler_unix.cpp:149-186, one round of the loop *)
Definition dump_line (demangle : str -> option str) (idx : nat) (strMessage : str) : option str :=
  match parse_frame strMessage with
  | None => None
  | Some (mangled_name, offset) =>
      let head := tab ++ lit "stack dump [" ++ to_string (Z.of_nat idx) ++ lit "]  " in
      if negb (is_empty mangled_name) && negb (is_empty offset) then
        match demangle (c_str mangled_name) with
        | Some real_name => Some (head ++ real_name ++ lit " + " ++ offset ++ nl)
        | None => Some (head ++ mangled_name ++ lit " + " ++ offset ++ nl)
        end
      else Some (head ++ strMessage ++ nl)
  end.

(** the loop from [idx] on; crashhandler_unix.cpp:148-188 *)
Fixpoint dump_lines (demangle : str -> option str) (idx : nat) (frames : list str) : option str :=
  match frames with
  | [] => Some []
  | f :: r =>
      match dump_line demangle idx f, dump_lines demangle (S idx) r with
      | Some a, Some b => Some (a ++ b)
      | _, _ => None
      end
  end.

(** crashhandler_unix.cpp:136-190.  [rawdump] = None: null pointer.  Frame 0 is skipped. *)
Definition stackdump (demangle : str -> option str) (frames : option (list str)) (rawdump : option str) : option str :=
  match rawdump with
  | Some (c :: r) => Some (c :: r)
  | _ =>
      match frames with
      | None => Some []
      | Some fs => dump_lines demangle 1 (tl fs)
      end
  end.
