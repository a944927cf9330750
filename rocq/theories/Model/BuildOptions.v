(** The build options, the header that is generated from them, and what the compiler makes of it.
    Source: Options.cmake:29-174, GenerateMacroDefinitionsFile.cmake:1-53, CMakeLists.txt:98-116, src/g3log/loglevels.hpp:9-22, src/g3log/g3log.hpp:31-37.

    Simplifications: CMake's cache of options is not modelled (an option is on or off when CMake runs); square brackets, backslashes and
    dollar signs in CMake lists are not (no definition has any); of the preprocessor there are comments, #define of macros without parameters,
    and "defined"; line splicing, string literals and #undef, which the header does not have, are not. *)
From Coq Require Import Ascii String List Bool.
From Verif.Base Require Import Bytes.
Import ListNotations.
Local Open Scope list_scope.

(** what CMake builds for: MSVC, MinGW (a GNU compiler on Windows), or a GNU-compatible compiler elsewhere; Options.cmake:144 *)
Inductive platform := Msvc | Mingw | Gnu.
(** the options that have definitions, by their names; Options.cmake:39, 54, 67, 80, 92, 104, 116, 149, 165 *)
Record options := mkOptions {
  USE_DYNAMIC_LOGGING_LEVELS : bool; CHANGE_G3LOG_DEBUG_TO_DBUG : bool; WINDOWS_FUNCSIG : bool; PRETTY_FUNCTION : bool;
  USE_G3_DYNAMIC_MAX_MESSAGE_SIZE : bool; G3_LOG_FULL_FILENAME : bool; ENABLE_FATAL_SIGNALHANDLING : bool;
  ENABLE_VECTORED_EXCEPTIONHANDLING : bool; DEBUG_BREAK_AT_FATAL_SIGNAL : bool }.
(** the defaults: Options.cmake, the last word of every option() *)
Definition default_options : options := mkOptions false false false false false false true true false.

(** ** CMake *)
(** a list of CMake is a text with semicolons; LIST(APPEND l e); CMake, called at Options.cmake:42-168 *)
Definition SEMI : ascii := ascii_of_nat 59.
Definition append (l e : str) : str := match l with [] => e | _ => l ++ SEMI :: e end.
(** the elements of a list, as FOREACH and unquoted arguments see them: no empty ones; CMake, used at GenerateMacroDefinitionsFile.cmake:38 and 50 *)
Fixpoint elements_from (cur s : str) : list str :=
  match s with
  | [] => match cur with [] => [] | _ => [cur] end
  | c :: r => if Ascii.eqb c SEMI then match cur with [] => elements_from [] r | _ => cur :: elements_from [] r end
              else elements_from (cur ++ [c]) r
  end.
(** helper of this model, no source of its own *)
Definition elements (s : str) : list str := elements_from [] s.

(** IF(x) LIST(APPEND G3_DEFINITIONS d); Options.cmake:41-42 and the others *)
Definition append_if (b : bool) (d : string) (l : str) : str := if b then append l (lit d) else l.
(** Options.cmake:29-174: G3_DEFINITIONS at the end *)
Definition G3_DEFINITIONS (p : platform) (o : options) : str :=
  let l := [] in
  let l := append_if (USE_DYNAMIC_LOGGING_LEVELS o) "G3_DYNAMIC_LOGGING" l in
  let l := if CHANGE_G3LOG_DEBUG_TO_DBUG o then append (append l (lit "CHANGE_G3LOG_DEBUG_TO_DBUG")) (lit "G3LOG_DEBUG DBUG")
           else append l (lit "G3LOG_DEBUG DEBUG") in
  let l := append_if (WINDOWS_FUNCSIG o) "WINDOWS_FUNCSIG" l in
  let l := append_if (PRETTY_FUNCTION o) "PRETTY_FUNCTION" l in
  let l := append_if (USE_G3_DYNAMIC_MAX_MESSAGE_SIZE o) "G3_DYNAMIC_MAX_MESSAGE_SIZE" l in
  let l := append_if (G3_LOG_FULL_FILENAME o) "G3_LOG_FULL_FILENAME" l in
  let l := append_if (negb (ENABLE_FATAL_SIGNALHANDLING o)) "DISABLE_FATAL_SIGNALHANDLING" l in
  match p with
  | Gnu => l
  | _ => append_if (DEBUG_BREAK_AT_FATAL_SIGNAL o) "DEBUG_BREAK_AT_FATAL_SIGNAL"
           (append_if (negb (ENABLE_VECTORED_EXCEPTIONHANDLING o)) "DISABLE_VECTORED_EXCEPTIONHANDLING" l)
  end.

(** GenerateMacroDefinitionsFile.cmake:11-17 *)
Definition HEADER : str :=
  lit "/** ==========================================================================" ++ nl ++
  lit "* 2015 by KjellKod.cc. This is PUBLIC DOMAIN to use at your own risk and comes" ++ nl ++
  lit "* with no warranties. This code is yours to share, use and modify with no" ++ nl ++
  lit "* strings attached and no restrictions or obligations." ++ nl ++
  lit "* " ++ nl ++
  lit "* For more information see g3log/LICENSE or refer refer to http://unlicense.org" ++ nl ++
  lit "* ============================================================================*/".
(** GenerateMacroDefinitionsFile.cmake:33-36 *)
Definition preamble : str :=
  lit "// AUTO GENERATED MACRO DEFINITIONS FOR G3LOG" ++ nl ++ nl ++
  nl ++ HEADER ++ nl ++
  nl ++ lit "#pragma once" ++ nl ++ nl ++
  nl ++ lit "// CMake induced definitions below. See g3log/Options.cmake for details." ++ nl ++ nl.
(** GenerateMacroDefinitionsFile.cmake:38-40 *)
Definition generated_content (definitions : str) : str :=
  fold_left (fun content definition => content ++ nl ++ lit "#define " ++ definition ++ nl) (elements definitions) preamble.
(** GenerateMacroDefinitionsFile.cmake:27-53: the file before (None: there is none) and after, and whether it is written; file(WRITE) has its text
    as an unquoted argument, and writes all its arguments one after the other *)
Definition generate (current : option str) (definitions : str) : str * bool :=
  let content := generated_content definitions in
  let old := match current with Some c => c | None => [] end in
  if str_eqb old content then (old, false) else (concat (elements content), true).
(** CMakeLists.txt:98-116 *)
Definition configure (current : option str) (p : platform) (o : options) : str * bool := generate current (G3_DEFINITIONS p o).

(** ** the preprocessor *)
(** comments: C++17 [lex.comment] *)
Inductive lex := Code | Slash | Line | Comment | Star.
(** helper of this model, no source of its own; [lex.comment] *)
Definition lex_step (q : lex) (c : ascii) : lex * str :=
  match q with
  | Code => if Ascii.eqb c "/"%char then (Slash, []) else (Code, [c])
  | Slash => if Ascii.eqb c "/"%char then (Line, []) else if Ascii.eqb c "*"%char then (Comment, []) else (Code, ["/"%char; c])
  | Line => if Ascii.eqb c NL then (Code, [NL]) else (Line, [])
  | Comment => if Ascii.eqb c "*"%char then (Star, []) else (Comment, [])
  | Star => if Ascii.eqb c "/"%char then (Code, [" "%char]) else if Ascii.eqb c "*"%char then (Star, []) else (Comment, [])
  end.
(** helper of this model, no source of its own; [lex.phases] *)
Fixpoint strip (q : lex) (s : str) : str :=
  match s with
  | [] => match q with Slash => ["/"%char] | _ => [] end
  | c :: r => snd (lex_step q c) ++ strip (fst (lex_step q c)) r
  end.
(** the lines of a text; helper of this model, no source of its own *)
Fixpoint lines_from (cur s : str) : list str :=
  match s with
  | [] => [cur]
  | c :: r => if Ascii.eqb c NL then cur :: lines_from [] r else lines_from (cur ++ [c]) r
  end.
(** name and replacement; [cpp.replace] *)
Fixpoint name_of (s : str) : str * str :=
  match s with
  | [] => ([], [])
  | c :: r => if Ascii.eqb c " "%char then ([], r) else let (a, b) := name_of r in (c :: a, b)
  end.
(** the macro a line defines; [cpp.replace] *)
Definition define_of (line : str) : list (str * str) :=
  if is_prefix (lit "#define ") line then [name_of (skipn 8 line)] else [].
(** all macros of a header; [cpp.replace] *)
Definition macros (header : str) : list (str * str) := flat_map define_of (lines_from [] (strip Code header)).
(** helper of this model, no source of its own *)
Definition defined (ms : list (str * str)) (name : string) : bool := existsb (fun m => str_eqb (fst m) (lit name)) ms.

(** loglevels.hpp:9-22, when the file is included for the first time, with the macros of the program before it: None is #error *)
Definition loglevels_hpp (header : str) (program : list (str * str)) : option (list (str * str)) :=
  let ms := program ++ macros header in
  if defined ms "CHANGE_G3LOG_DEBUG_TO_DBUG" then if defined ms "DBUG" then None else Some ms
  else if defined ms "DEBUG" then None else Some ms.
(** what names the function in an entry; g3log.hpp:31-37; MSVC defines _MSC_VER, the others __GNUC__ *)
Inductive function_name := FUNCSIG | PRETTY | FUNCTION.
Definition G3LOG_PRETTY_FUNCTION (p : platform) (ms : list (str * str)) : function_name :=
  match p with
  | Msvc => if defined ms "WINDOWS_FUNCSIG" then FUNCSIG else FUNCTION
  | _ => if defined ms "PRETTY_FUNCTION" then PRETTY else FUNCTION
  end.
(** the replacement of a macro, which is looked at again without it; [cpp.rescan] (for replacements that are a single name) *)
Fixpoint expand (fuel : nat) (ms : list (str * str)) (token : str) : str :=
  match fuel with
  | O => token
  | S k => match List.find (fun m => str_eqb (fst m) token) ms with
           | None => token
           | Some m => expand k (filter (fun m => negb (str_eqb (fst m) token)) ms) (snd m)
           end
  end.
(** the name of the variable that loglevels.hpp:96 defines, after preprocessing *)
Definition debug_level (ms : list (str * str)) : str := expand (S (List.length ms)) ms (lit "G3LOG_DEBUG").
