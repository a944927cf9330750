(** Byte strings and the parts of std::string / size_t the code relies on.

    [str] models std::string: a finite list of bytes (any byte, including NUL).
    [size_t] values are [N]; [sz] is the reduction modulo 2^64 that unsigned
    arithmetic performs.  Library behaviour (trusted): the ISO C++ description of
    basic_string, not code of /repo. *)
From Coq Require Import Ascii String List NArith ZArith Lia Bool.
Import ListNotations.
Local Open Scope list_scope.

(** std::string *)
Definition str := list ascii.

(** String literals: [lit "abc"].  Helper of this model, no source of its own *)
Definition lit (s : string) : str := list_ascii_of_string s.

(** the byte written \0 in C++ literals *)
Definition NUL : ascii := Ascii.zero.
(** written \n *)
Definition NL  : ascii := ascii_of_nat 10.
(** written \t *)
Definition TAB : ascii := ascii_of_nat 9.
(** the double quote *)
Definition DQ  : ascii := ascii_of_nat 34.
(** the string of one line feed *)
Definition nl  : str := [NL].
(** the string of one tab *)
Definition tab : str := [TAB].
(** the string of one double quote *)
Definition dq  : str := [DQ].


(** std::string operator== *)
Fixpoint str_eqb (a b : str) : bool :=
  match a, b with
  | [], [] => true
  | x :: a', y :: b' => Ascii.eqb x y && str_eqb a' b'
  | _, _ => false
  end.

(** membership of a character in a set given as a string; helper of this model, no source of its own *)
Fixpoint mem (c : ascii) (set : str) : bool :=
  match set with
  | [] => false
  | x :: r => if Ascii.eqb c x then true else mem c r
  end.

(** size_t: unsigned 64 bit *)
Definition size_max : N := 18446744073709551616%N.          (* 2^64 *)
Definition sz (n : N) : N := N.modulo n size_max.
(** std::string::npos *)
Definition npos : N := 18446744073709551615%N.              (* static_cast<size_t>(-1) *)
(** unsigned subtraction a - b; C++ standard library, no source in /repo *)
Definition sz_sub (a b : N) : N := sz (a + size_max - b)%N.

(** std::string::size *)
Definition size (s : str) : N := N.of_nat (length s).

(** s.substr(pos, count): throws std::out_of_range iff pos > size(); None = throws; C++ standard library, no source in /repo *)
Definition substr (s : str) (pos count : N) : option str :=
  if (size s <? pos)%N then None
  else Some (firstn (N.to_nat (N.min count (size s - pos))) (skipn (N.to_nat pos) s)).

(** index of the last character of [s] that belongs to [set], counting from [i]; helper of this model, no source of its own *)
Fixpoint last_of_from (set s : str) (i : nat) : option nat :=
  match s with
  | [] => None
  | c :: r =>
      match last_of_from set r (S i) with
      | Some k => Some k
      | None => if mem c set then Some i else None
      end
  end.

(** std::string::find_last_of(set) *)
Definition find_last_of (s set : str) : N :=
  match last_of_from set s 0 with Some k => N.of_nat k | None => npos end.

(** helper of this model, no source of its own *)
Fixpoint first_of_from (set s : str) (i : nat) : option nat :=
  match s with
  | [] => None
  | c :: r => if mem c set then Some i else first_of_from set r (S i)
  end.

(** std::string::find_first_of(set) *)
Definition find_first_of (s set : str) : N :=
  match first_of_from set s 0 with Some k => N.of_nat k | None => npos end.

(** helper of this model, no source of its own *)
Fixpoint is_prefix (p s : str) : bool :=
  match p, s with
  | [], _ => true
  | x :: p', y :: s' => Ascii.eqb x y && is_prefix p' s'
  | _ :: _, [] => false
  end.

(** index of the first occurrence of the non-empty [p] in [s], counting from [i]; helper of this model, no source of its own *)
Fixpoint sub_from (p s : str) (i : nat) : option nat :=
  match s with
  | [] => if is_prefix p [] then Some i else None
  | _ :: r => if is_prefix p s then Some i else sub_from p r (S i)
  end.

(** s.find(p, pos); C++ standard library, no source in /repo *)
Definition find (s p : str) (pos : N) : N :=
  if (size s <? pos)%N then npos
  else match sub_from p (skipn (N.to_nat pos) s) (N.to_nat pos) with
       | Some k => N.of_nat k | None => npos end.

(** s.replace(pos, count, t): throws iff pos > size(); C++ standard library, no source in /repo *)
Definition replace (s : str) (pos count : N) (t : str) : option str :=
  if (size s <? pos)%N then None
  else Some (firstn (N.to_nat pos) s ++ t ++
             skipn (N.to_nat (pos + N.min count (size s - pos))) s).

(** What a [const char*] consumer sees of s.c_str(): everything before the first NUL.  C++ standard library, no source in /repo *)
Fixpoint c_str (s : str) : str :=
  match s with
  | [] => []
  | c :: r => if Ascii.eqb c NUL then [] else c :: c_str r
  end.

(** std::string(n, c); C++ standard library, no source in /repo *)
Definition rep (n : nat) (c : ascii) : str := repeat c n.

(** decimal rendering, std::to_string for unsigned and signed integers; C++ standard library, no source in /repo *)
Definition digit (n : N) : ascii := ascii_of_N (48 + n mod 10)%N.

(** the digits of n, put before acc; helper of this model, no source of its own *)
Fixpoint dig (fuel : nat) (n : N) (acc : str) : str :=
  match fuel with
  | O => acc
  | S f => let acc' := digit n :: acc in
           if (n / 10 =? 0)%N then acc' else dig f (n / 10)%N acc'
  end.

(** std::to_string of an unsigned number *)
Definition dec (n : N) : str := dig (S (N.to_nat (N.log2 n))) n [].

(** std::to_string of a signed number *)
Definition to_string (z : Z) : str :=
  match z with
  | Z0 => dec 0
  | Zpos p => dec (Npos p)
  | Zneg p => "-"%char :: dec (Npos p)
  end.
