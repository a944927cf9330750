(** C66, C67: the stack dump.  Model: Model/StackDump.v; specification: Spec/StackDumpSpec.v. *)
From Coq Require Import Ascii String List ZArith NArith Bool Lia.
From Verif.Base Require Import Bytes.
From Verif.Model Require Import StackDump.
From Verif.Spec Require Import StackDumpSpec.
From Verif.Proofs Require Import BytesFacts FileNameFacts StackDumpFacts.
Import ListNotations.
Local Open Scope list_scope.

(** C strings as the system supplies them *)
Definition sane (f : str) : Prop := (size f + 2 < size_max)%N /\ ~ In NUL f.

(** What the dump should show of a frame. *)
Inductive shows (demangle : str -> option str) (f : str) : str -> Prop :=
| sh_demangled symbol offset name : symbol_frame f symbol offset -> demangle symbol = Some name ->
    shows demangle f (name ++ lit " + " ++ offset)
| sh_mangled symbol offset : symbol_frame f symbol offset -> demangle symbol = None ->
    shows demangle f (symbol ++ lit " + " ++ offset)
| sh_opaque : opaque_frame f -> shows demangle f f.

Lemma c_str_sub : forall s, ~ In NUL s -> c_str s = s.
Proof.
  induction s as [|c s IH]; intro N; cbn [c_str]; auto. destruct (Ascii.eqb_spec c NUL) as [->|n].
  - exfalso. apply N. now left.
  - f_equal. apply IH. intro I. apply N. now right.
Qed.

Lemma symbol_incl : forall f sym off, symbol_frame f sym off -> incl sym f /\ sym <> [] /\ off <> [].
Proof.
  intros f sym off [(a & b & -> & _) _ S O|front _ -> (r & ->) O _ _ _].
  - split; auto. intros c I. rewrite !in_app_iff. auto 6.
  - split; [|split; auto; discriminate]. intros c I. rewrite !in_app_iff in *. tauto.
Qed.

(** one line *)
Lemma line_shows : forall demangle i f shown, sane f -> ~ bad_frame f -> shows demangle f shown ->
  dump_line demangle i f = Some (frame_line i shown).
Proof.
  intros demangle i f shown [B NN] NB H. unfold dump_line, frame_line.
  assert (SY : forall sym off, symbol_frame f sym off ->
    parse_frame f = Some (sym, off) /\ is_empty sym = false /\ is_empty off = false /\ c_str sym = sym).
  { intros sym off S. destruct (symbol_incl _ _ _ S) as (IN & S0 & O0). split; [now apply parse_symbol|].
    split; [destruct sym; [congruence|reflexivity]|]. split; [destruct off; [congruence|reflexivity]|].
    apply c_str_sub. intro I. apply NN. now apply IN. }
  destruct H as [sym off name S D|sym off S D|O].
  - destruct (SY _ _ S) as (-> & -> & -> & ->). cbn [negb andb]. rewrite D. f_equal. unfold tab, nl. rewrite <- !app_assoc. reflexivity.
  - destruct (SY _ _ S) as (-> & -> & -> & ->). cbn [negb andb]. rewrite D. f_equal. unfold tab, nl. rewrite <- !app_assoc. reflexivity.
  - destruct (parse_opaque f O B NB) as (m & o & -> & [-> | ->]).
    + cbn [is_empty negb andb]. f_equal. unfold tab, nl. rewrite <- !app_assoc. reflexivity.
    + cbn [is_empty negb]. rewrite andb_false_r. f_equal. unfold tab, nl. rewrite <- !app_assoc. reflexivity.
Qed.

(** ** C66 *)
(** One numbered line per frame except the innermost, in order, showing what it should. *)
Theorem C66_lines : forall demangle innermost frames shown,
  Forall sane frames -> (forall f, In f frames -> ~ bad_frame f) -> Forall2 (shows demangle) frames shown ->
  stackdump demangle (Some (innermost :: frames)) None = Some (number_from 1 shown).
Proof.
  intros demangle innermost frames shown S NB H. unfold stackdump. cbn [tl]. generalize 1%nat as i.
  induction H as [|f x frames shown HX H IH]; intro i; cbn [dump_lines number_from]; auto.
  inversion S; subst. rewrite (line_shows demangle i f x) by (auto; apply NB; now left).
  rewrite IH; auto. intros g G. apply NB. now right.
Qed.
Print Assumptions C66_lines.

(** Whatever the frames are like: the dump, if there is one, is made of one numbered line per frame except
    the innermost, in order. *)
Theorem C66_one_line_each : forall demangle innermost frames d,
  stackdump demangle (Some (innermost :: frames)) None = Some d ->
  exists shown, length shown = length frames /\ d = number_from 1 shown.
Proof.
  intros demangle innermost frames. unfold stackdump. cbn [tl]. generalize 1%nat as i.
  induction frames as [|f frames IH]; intros i d H; cbn [dump_lines] in H.
  - injection H as <-. exists []. auto.
  - destruct (dump_line demangle i f) as [a|] eqn:L; [|discriminate].
    destruct (dump_lines demangle (S i) frames) as [b|] eqn:R; [|discriminate]. injection H as <-.
    destruct (IH _ _ R) as (shown & LEN & ->).
    assert (X : exists x, a = frame_line i x).
    { unfold dump_line in L. destruct (parse_frame f) as [[m o]|]; [|discriminate]. unfold frame_line, tab, nl in *.
      destruct (negb (is_empty m) && negb (is_empty o)); [destruct (demangle (c_str m)) as [r|]|]; injection L as <-.
      - exists (r ++ lit " + " ++ o). rewrite <- !app_assoc. reflexivity.
      - exists (m ++ lit " + " ++ o). rewrite <- !app_assoc. reflexivity.
      - exists f. rewrite <- !app_assoc. reflexivity. }
    destruct X as [x ->]. exists (x :: shown). cbn [length number_from]. auto.
Qed.
Print Assumptions C66_one_line_each.

(** A dump that was supplied is passed on; without symbols the dump is empty. *)
Theorem C66_given_dump : forall demangle frames d, d <> [] -> stackdump demangle frames (Some d) = Some d.
Proof. intros demangle frames [|c d] N; [congruence|reflexivity]. Qed.
Print Assumptions C66_given_dump.
Theorem C66_no_symbols : forall demangle, stackdump demangle None None = Some [].
Proof. reflexivity. Qed.
Print Assumptions C66_no_symbols.
(** An empty text given as the dump counts as none: the stack is walked, with one line for each frame but the innermost. *)
Theorem C66_empty_dump : forall demangle innermost frames shown,
  Forall sane frames -> (forall f, In f frames -> ~ bad_frame f) -> Forall2 (shows demangle) frames shown ->
  stackdump demangle (Some (innermost :: frames)) (Some []) = Some (number_from 1 shown) /\
  stackdump demangle (Some []) (Some []) = Some [] /\ stackdump demangle None (Some []) = Some [].
Proof. intros demangle innermost frames shown S B H. split; [|split; reflexivity]. rewrite <- (C66_lines demangle innermost frames shown S B H). reflexivity. Qed.
Print Assumptions C66_empty_dump.
Example C66_empty_dump_ex : stackdump (fun _ => None) (Some [lit "./a(dump+0x1) [0x0]"; lit "./a(start+0x2) [0x5]"]) (Some []) = Some (number_from 1 [lit "start + 0x2"]).
Proof. vm_compute. reflexivity. Qed.

Definition demo_demangle (s : str) : option str := if str_eqb s (lit "_Z4mainv") then Some (lit "main()") else None.
Example C66_ex1 :
  stackdump demo_demangle (Some [lit "./a(dump+0x1) [0x0]"; lit "./a(_Z4mainv+0x1f) [0x4]"; lit "./a(start+0x2) [0x5]"; lit "./a(+0x12) [0x7]"; lit "4 a 0x07 _Z4mainv + 42"]) None
  = Some (number_from 1 [lit "main() + 0x1f"; lit "start + 0x2"; lit "./a(+0x12) [0x7]"; lit "main() + 42"]).
Proof. vm_compute. reflexivity. Qed.

Ltac no_in := let X := fresh in intro X; cbn in X; repeat (destruct X as [X|X]; [discriminate X|]); try exact X.

Example C66_ex2 : symbol_frame (lit "./a(_Z4mainv+0x1f) [0x4]") (lit "_Z4mainv") (lit "0x1f") /\
  sane (lit "./a(_Z4mainv+0x1f) [0x4]") /\ ~ bad_frame (lit "./a(_Z4mainv+0x1f) [0x4]").
Proof.
  split; [|split].
  - apply sf_linux; try discriminate; [|no_in]. exists (lit "./a"), (lit " [0x4]"). split; [reflexivity|]. split; [no_in|]. split; no_in.
  - split; [reflexivity|no_in].
  - intros ([N|N] & _); apply N; cbn; auto 20.
Qed.
Example C66_ex3 : symbol_frame (lit "4 a 0x07 _Z4mainv + 42") (lit "_Z4mainv") (lit "42").
Proof.
  apply (sf_macos _ _ _ (lit "4 a 0x07")); [left; no_in|reflexivity|exists (lit "Z4mainv"); reflexivity|discriminate|no_in|no_in|].
  apply (last_sub_none _ _ 0); [discriminate|reflexivity].
Qed.
Example C66_ex4 : opaque_frame (lit "./a(+0x12) [0x7]").
Proof. apply (of_no_symbol _ (lit "0x12")). exists (lit "./a"), (lit " [0x7]"). split; [reflexivity|]. split; [no_in|]. split; no_in. Qed.

(** ** C67 *)
Theorem C67_refuted : exists demangle innermost f, sane f /\ stackdump demangle (Some [innermost; f]) None = None.
Proof. exists (fun _ => None), [], (lit "4 a 0x07 _main +"). split; [split; [reflexivity|no_in]|reflexivity]. Qed.
Print Assumptions C67_refuted.

(** It throws exactly if one of the frames is bad. *)
Theorem C67_throws_iff_partial : forall demangle innermost frames, Forall sane frames ->
  stackdump demangle (Some (innermost :: frames)) None = None <-> exists f, In f frames /\ bad_frame f.
Proof.
  intros demangle innermost frames S. unfold stackdump. cbn [tl]. generalize 1%nat as i.
  induction S as [|f frames [B N] S IH]; intro i; cbn [dump_lines].
  - split; [discriminate|]. intros (f & [] & _).
  - assert (L : dump_line demangle i f = None <-> bad_frame f).
    { rewrite <- (parse_throws f B). unfold dump_line. destruct (parse_frame f) as [[m o]|]; [|tauto].
      destruct (negb (is_empty m) && negb (is_empty o)); [destruct (demangle (c_str m))|]; split; discriminate. }
    destruct (dump_line demangle i f) as [a|] eqn:E.
    + specialize (IH (Datatypes.S i)).
      destruct (dump_lines demangle (Datatypes.S i) frames) as [b|].
      * split; [discriminate|]. intros (g & [<-|G] & BG); [apply L in BG; discriminate|].
        exfalso. assert (X : Some b = None) by (apply IH; eauto). discriminate.
      * split; auto. intros _. destruct IH as [IH _]. destruct (IH eq_refl) as (g & G & BG). exists g. cbn. auto.
    + split; auto. intros _. exists f. split; [now left|]. now apply L.
Qed.
Print Assumptions C67_throws_iff_partial.
