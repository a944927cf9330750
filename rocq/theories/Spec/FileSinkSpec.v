(** What the log files should contain. *)
From Coq Require Import Ascii String List ZArith NArith Bool.
From Verif.Base Require Import Bytes.
From Verif.Model Require Import TimeFmt Message FileSink.
Import ListNotations.
Local Open Scope list_scope.

Definition starts_with (whole part : str) : Prop := exists rest, whole = part ++ rest.

(** texts the sink itself puts into a file *)
Definition header_text (created format : str) : str :=
  [TAB; TAB] ++ lit "g3log created log at: " ++ created ++ [NL] ++ format.
Definition failed_change_text (at_time name : str) : str :=
  [NL] ++ at_time ++ lit " Unable to change log file. Illegal filename or busy? Unsuccessful log name was: " ++ name.
Definition leaving_text (at_time old new : str) : str :=
  at_time ++ [NL; TAB] ++ lit "Changing log file from : " ++ old ++ [NL; TAB] ++ lit "to new location: " ++ new ++ [NL].
Definition arriving_text (at_time old : str) : str :=
  at_time ++ [NL; TAB] ++ lit "New log file. The previous log file was at: " ++ old ++ [NL].
Definition closing_text (at_time : str) : str := lit "g3log g3FileSink shutdown at: " ++ at_time ++ [NL].

Inductive notice : str -> Prop :=
| n_header c f : notice (header_text c f)
| n_failed t n : notice (failed_change_text t n)
| n_leaving t o n : notice (leaving_text t o n)
| n_arriving t o : notice (arriving_text t o).

(** a file as a sequence of log entries and notices *)
Inductive piece := Entry (t : str) | Note (t : str).
Definition piece_text (p : piece) : str := match p with Entry t | Note t => t end.
Definition bytes (ps : list piece) : str := concat (map piece_text ps).
Definition entries (ps : list piece) : list str :=
  concat (map (fun p => match p with Entry t => [t] | Note _ => [] end) ps).
Definition notes_ok (ps : list piece) : Prop := forall t, In (Note t) ps -> notice t.

(** The entries a sequence of calls should produce: each message rendered with the details
    function set last before it, starting with [f]. *)
Inductive received (e : env) : LogDetailsFunc -> list op -> list str -> Prop :=
| r_nil f : received e f [] []
| r_recv f m now k1 k2 os t ts :
    snd (toString_with e m f) = FOk t -> received e f os ts -> received e f (ORecv m now k1 k2 :: os) (t :: ts)
| r_details f f' os ts : received e f' os ts -> received e f (ODetails f' :: os) ts
| r_header f h os ts : received e f os ts -> received e f (OHeader h :: os) ts
| r_change f d i a b c r k1 k2 k3 os ts : received e f os ts -> received e f (OChange d i a b c r k1 k2 k3 :: os) ts.

(** the header text set last before the first message, and the time of that message; None = no message *)
Fixpoint first_header (h : str) (os : list op) : option (str * Z) :=
  match os with
  | [] => None
  | ORecv _ now _ _ :: _ => Some (h, now)
  | OHeader h' :: r => first_header h' r
  | _ :: r => first_header h r
  end.

(** calls that do not change the file; the files opened by those that do *)
Definition no_change (o : op) : Prop := match o with OChange _ _ _ _ _ _ _ _ _ => False | _ => True end.
Fixpoint opened (os : list op) : list nat :=
  match os with
  | [] => []
  | OChange _ _ _ _ _ (Some i) _ _ _ :: r => i :: opened r
  | _ :: r => opened r
  end.

(** the header the first message should bring into the file: nothing without a message, else the header
    text set last before it, with the creation time *)
Definition header_due (e : env) (h : str) (os : list op) (hd : str) : Prop :=
  match first_header h os with
  | None => hd = []
  | Some (h', now) => exists c, FileName.formatted (clock_of e) now (lit "%a %b %d %H:%M:%S %Y") = FOk c /\ hd = header_text c h'
  end.
