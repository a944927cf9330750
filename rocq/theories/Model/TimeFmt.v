(** Time stamps and their rendering.
    Source: src/time.cpp, src/g3log/time.hpp.

    A time point is the number of nanoseconds since the epoch ([Z]; libstdc++'s
    system_clock and high_resolution_clock both tick in nanoseconds, coarser clocks give
    multiples).  64-bit overflow of time points (years beyond 2262) is not modelled. *)
From Coq Require Import Ascii String List ZArith NArith Bool.
From Verif.Base Require Import Bytes.
Import ListNotations.
Local Open Scope list_scope.

(** time.hpp:31-34 *)
Inductive Fractional := Millisecond | Microsecond | Nanosecond | NanosecondDefault.

(** Result of a formatting function: a string, a C++ exception (std::length_error or
    std::out_of_range), an assertion failure (debug build), or a loop that did not finish
    within the given number of rounds (shown unreachable).  Outcomes of time.cpp:51-150 *)
Inductive fres := FOk (s : str) | FThrow | FAbort | FFuel.

(** time.cpp:24-25 *)
Definition kFractionalIdentier : str := lit "%f".
(** time.cpp:25 *)
Definition kFractionalIdentierSize : N := 2.

(** time.cpp:27-45 *)
Definition getFractional (buf : str) (pos : N) : Fractional :=
  let ch := if (pos + kFractionalIdentierSize <? size buf)%N
            then nth (N.to_nat (pos + kFractionalIdentierSize)) buf NUL else NUL in
  if Ascii.eqb ch "3" then Millisecond
  else if Ascii.eqb ch "6" then Microsecond
  else if Ascii.eqb ch "9" then Nanosecond
  else NanosecondDefault.

(** time.cpp:57-75: number of digits and divisor *)
Definition zeroes (f : Fractional) : N :=
  match f with Millisecond => 3 | Microsecond => 6 | Nanosecond | NanosecondDefault => 9 end.
(** time.cpp:57-75 *)
Definition digitsToCut (f : Fractional) : Z :=
  match f with Millisecond => 1000000 | Microsecond => 1000 | Nanosecond | NanosecondDefault => 1 end.

(** time.cpp:52-55: duration_cast and operator- truncate toward zero *)
Definition subsecond_ns (ts : Z) : Z := (ts - Z.quot ts 1000000000 * 1000000000)%Z.

(** largest count accepted by std::string(count, char); above it std::length_error is thrown; C++ standard library, no source in /repo *)
Definition string_max_size : N := 9223372036854775807.

(** time.cpp:51-80 to_string(ts, fractional) *)
Definition frac_to_string (ts : Z) (f : Fractional) : fres :=
  let ns := Z.quot (subsecond_ns ts) (digitsToCut f) in          (* line 77 *)
  let value := to_string ns in                                    (* line 78 *)
  let count := sz_sub (zeroes f) (size value) in                  (* line 79, size_t arithmetic *)
  if (string_max_size <? count)%N then FThrow
  else FOk (rep (N.to_nat count) "0" ++ value).

(** time.cpp:82-100: the loop, at most [fuel] rounds, from position [pos] *)
Fixpoint fractions_loop (fuel : nat) (ts : Z) (buf : str) (pos : N) : fres :=
  match fuel with
  | O => FFuel
  | S fuel' =>
      let p := find buf kFractionalIdentier pos in
      if (p =? npos)%N then FOk buf
      else
        let type := getFractional buf p in
        match frac_to_string ts type with
        | FOk value =>
            let padding := match type with NanosecondDefault => 0%N | _ => 1%N end in
            match replace buf p (size kFractionalIdentier + padding) value with
            | Some buf' => fractions_loop fuel' ts buf' (p + kFractionalIdentierSize)%N
            | None => FThrow
            end
        | r => r
        end
  end.

(** time.cpp:82-100 *)
Definition localtime_formatted_fractions (ts : Z) (format : str) : fres :=
  fractions_loop (S (length format)) ts format 0.

(** struct tm, the members used by the conversions below; C library *)
Record tm := mkTm { tm_sec : Z; tm_min : Z; tm_hour : Z; tm_mday : Z; tm_mon : Z; tm_year : Z }.

(** C library strftime (external).  The conversions g3log's own formats use are spelled
    out; every other conversion character is left to the parameter [ext]. *)
Definition two (n : Z) : str := if (n <? 10)%Z then "0"%char :: to_string n else to_string n.

(** one conversion of strftime; C library *)
Definition strftime_conv (ext : ascii -> tm -> str) (c : ascii) (t : tm) : str :=
  if Ascii.eqb c "Y" then to_string (tm_year t + 1900)
  else if Ascii.eqb c "m" then two (tm_mon t + 1)
  else if Ascii.eqb c "d" then two (tm_mday t)
  else if Ascii.eqb c "H" then two (tm_hour t)
  else if Ascii.eqb c "M" then two (tm_min t)
  else if Ascii.eqb c "S" then two (tm_sec t)
  else if Ascii.eqb c "%" then lit "%"
  else ext c t.

(** C library *)
Fixpoint strftime (ext : ascii -> tm -> str) (fmt : str) (t : tm) : str :=
  match fmt with
  | [] => []
  | a :: r =>
      if Ascii.eqb a "%" then
        match r with
        | [] => lit "%"
        | c :: r' => strftime_conv ext c t ++ strftime ext r' t
        end
      else a :: strftime ext r t
  end.

(** time.cpp:109-133 (POSIX branch).  strftime reports 0 when the result is empty or does not
    fit the 1024-byte buffer; then a debug build aborts and a release build returns the format.
    [debug] = NDEBUG is not defined.  Returning [buffer] through const char* cuts at a NUL. *)
Definition put_time (debug : bool) (ext : ascii -> tm -> str) (t : tm) (c_format : str) : fres :=
  let full := strftime ext c_format t in
  if ((length full =? 0) || (1024 <=? length full))%nat then
    if debug then FAbort else FOk c_format
  else FOk (c_str full).

(** time.cpp:145-150; [local] is localtime_r for the zone in force, to_time_t truncates *)
Definition localtime_formatted (debug : bool) (ext : ascii -> tm -> str) (local : Z -> tm)
    (ts : Z) (format : str) : fres :=
  match localtime_formatted_fractions ts format with
  | FOk buf => put_time debug ext (local (Z.quot ts 1000000000)) (c_str buf)
  | r => r
  end.

(** time.hpp:38, 43 *)
Definition date_formatted : str := lit "%Y/%m/%d".
(** time.hpp:43 *)
Definition time_formatted : str := lit "%H:%M:%S %f6".

(** logmessage.hpp: default argument of LogMessage::timestamp; line 50 *)
Definition default_timestamp_format : str := date_formatted ++ lit " " ++ time_formatted.

(** time.hpp:62-77: sys_now + (ts - hrs_now), then time_point_cast to a clock whose tick is
    [k] nanoseconds (k = 1 on libstdc++).  Reference readings are in ticks ([sys_now]) and
    nanoseconds ([hrs_now], [ts]); the result is in ticks. *)
Definition to_system_time (k sys_now hrs_now ts : Z) : Z :=
  Z.quot (sys_now * k + (ts - hrs_now)) k.
