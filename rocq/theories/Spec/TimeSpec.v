(** Specifications for time rendering, independent of the loop in time.cpp. *)
From Coq Require Import Ascii String List ZArith NArith Bool.
From Verif.Base Require Import Bytes.
From Verif.Model Require Import TimeFmt.
Import ListNotations.
Local Open Scope list_scope.

(** [n] in decimal with leading zeroes, exactly [w] characters when n < 10^w *)
Definition padded (w : nat) (n : N) : str := repeat "0"%char (w - length (dec n)) ++ dec n.

(** whole milli-, micro- and nanoseconds within the second, for times at or after the epoch *)
Definition ms_of (ts : Z) : N := Z.to_N ((ts mod 1000000000) / 1000000).
Definition us_of (ts : Z) : N := Z.to_N ((ts mod 1000000000) / 1000).
Definition ns_of (ts : Z) : N := Z.to_N (ts mod 1000000000).

(** One left-to-right pass over the format: a placeholder becomes its digits, any other
    character is kept. *)
Fixpoint fill (d3 d6 d9 : str) (fmt : str) : str :=
  match fmt with
  | [] => []
  | a :: r1 =>
      if Ascii.eqb a "%" then
        match r1 with
        | b :: r2 =>
            if Ascii.eqb b "f" then
              match r2 with
              | c :: r3 =>
                  if Ascii.eqb c "3" then d3 ++ fill d3 d6 d9 r3
                  else if Ascii.eqb c "6" then d6 ++ fill d3 d6 d9 r3
                  else if Ascii.eqb c "9" then d9 ++ fill d3 d6 d9 r3
                  else d9 ++ fill d3 d6 d9 r2
              | [] => d9
              end
            else a :: fill d3 d6 d9 r1
        | [] => [a]
        end
      else a :: fill d3 d6 d9 r1
  end.

(** the text contains a placeholder *)
Definition has_placeholder (s : str) : Prop := exists a b, s = a ++ lit "%f" ++ b.

(** valid broken-down times with a four digit year *)
Definition tm_ok (t : tm) : Prop :=
  (0 <= tm_sec t <= 60 /\ 0 <= tm_min t <= 59 /\ 0 <= tm_hour t <= 23 /\
   1 <= tm_mday t <= 31 /\ 0 <= tm_mon t <= 11 /\ 1000 <= tm_year t + 1900 <= 9999)%Z.

(** the timestamp as documented: YYYY/MM/DD hh:mm:ss uuuuuu *)
Definition stamp (t : tm) (us : N) : str :=
  padded 4 (Z.to_N (tm_year t + 1900)) ++ lit "/" ++ padded 2 (Z.to_N (tm_mon t + 1)) ++ lit "/" ++
  padded 2 (Z.to_N (tm_mday t)) ++ lit " " ++ padded 2 (Z.to_N (tm_hour t)) ++ lit ":" ++
  padded 2 (Z.to_N (tm_min t)) ++ lit ":" ++ padded 2 (Z.to_N (tm_sec t)) ++ lit " " ++ padded 6 us.

(** dictionary order on byte strings *)
Fixpoint text_lt (a b : str) : Prop :=
  match a, b with
  | [], [] => False
  | [], _ :: _ => True
  | _ :: _, [] => False
  | x :: a', y :: b' => (N_of_ascii x < N_of_ascii y)%N \/ (x = y /\ text_lt a' b')
  end.

(** chronological order of broken-down times *)
Definition tm_lt (a b : tm) : Prop :=
  (tm_year a < tm_year b \/ tm_year a = tm_year b /\
  (tm_mon a < tm_mon b \/ tm_mon a = tm_mon b /\
  (tm_mday a < tm_mday b \/ tm_mday a = tm_mday b /\
  (tm_hour a < tm_hour b \/ tm_hour a = tm_hour b /\
  (tm_min a < tm_min b \/ tm_min a = tm_min b /\ tm_sec a < tm_sec b)))))%Z.


(** ** What a time format means: %f placeholders and the conversions of strftime, read from left to right *)
Definition conversion (ext : ascii -> tm -> str) (t : tm) (c : ascii) : str :=
  match c with
  | "Y"%char => padded 4 (Z.to_N (tm_year t + 1900))
  | "m"%char => padded 2 (Z.to_N (tm_mon t + 1))
  | "d"%char => padded 2 (Z.to_N (tm_mday t))
  | "H"%char => padded 2 (Z.to_N (tm_hour t))
  | "M"%char => padded 2 (Z.to_N (tm_min t))
  | "S"%char => padded 2 (Z.to_N (tm_sec t))
  | "%"%char => ["%"%char]
  | c => ext c t
  end.
Fixpoint render (d3 d6 d9 : str) (conv : ascii -> str) (fmt : str) : str :=
  match fmt with
  | [] => []
  | a :: r1 =>
      if Ascii.eqb a "%" then
        match r1 with
        | [] => [a]
        | b :: r2 =>
            if Ascii.eqb b "f" then
              match r2 with
              | c :: r3 =>
                  if Ascii.eqb c "3" then d3 ++ render d3 d6 d9 conv r3
                  else if Ascii.eqb c "6" then d6 ++ render d3 d6 d9 conv r3
                  else if Ascii.eqb c "9" then d9 ++ render d3 d6 d9 conv r3
                  else d9 ++ render d3 d6 d9 conv r2
              | [] => d9
              end
            else conv b ++ render d3 d6 d9 conv r2
        end
      else a :: render d3 d6 d9 conv r1
  end.
(** a literal % sign is not followed by f *)
Fixpoint no_escaped_f (fmt : str) : Prop :=
  match fmt with
  | [] => True
  | a :: r1 =>
      if Ascii.eqb a "%" then
        match r1 with
        | [] => True
        | b :: r2 =>
            (if Ascii.eqb b "%" then match r2 with c :: _ => c <> "f"%char | [] => True end else True) /\ no_escaped_f r2
        end
      else no_escaped_f r1
  end.
