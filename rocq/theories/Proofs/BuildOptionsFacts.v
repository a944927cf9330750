(** Facts about CMake lists and about the preprocessor. *)
From Coq Require Import Ascii String List Bool.
From Verif.Base Require Import Bytes.
From Verif.Model Require Import BuildOptions.
Import ListNotations.
Local Open Scope list_scope.

Definition without (c : ascii) (s : str) : Prop := ~ In c s.

Lemma eqb_no : forall (a b : ascii), a <> b -> Ascii.eqb a b = false.
Proof. intros a b N. destruct (Ascii.eqb_spec a b); [contradiction|reflexivity]. Qed.

Lemma elements_split : forall a cur b, elements_from cur (a ++ SEMI :: b) = elements_from cur a ++ elements b.
Proof.
  induction a as [|c a IH]; intros cur b; cbn [app elements_from].
  - rewrite Ascii.eqb_refl. destruct cur; reflexivity.
  - destruct (Ascii.eqb c SEMI); [|apply IH]. destruct cur as [|x cur]; [apply IH|]. cbn [app]. f_equal. apply IH.
Qed.
Lemma elements_one : forall s cur, without SEMI s -> elements_from cur s = match cur ++ s with [] => [] | t => [t] end.
Proof.
  induction s as [|c s IH]; intros cur W; cbn [elements_from].
  - rewrite app_nil_r. destruct cur; reflexivity.
  - rewrite eqb_no by (intros ->; apply W; now left). rewrite IH by (intros I; apply W; now right). rewrite <- app_assoc. reflexivity.
Qed.
Lemma elements_append : forall l e, e <> [] -> without SEMI e -> elements (append l e) = elements l ++ [e].
Proof.
  intros l e N W. assert (E : elements e = [e]). { unfold elements. rewrite elements_one by exact W. destruct e; [congruence|reflexivity]. }
  unfold append. destruct l as [|c l]; [exact E|]. unfold elements at 1. rewrite elements_split, E. reflexivity.
Qed.

Definition define_line (d : str) : str := nl ++ lit "#define " ++ d ++ nl.
Lemma content_of : forall ds, generated_content ds = preamble ++ flat_map define_line (elements ds).
Proof.
  intros ds. unfold generated_content. generalize (elements ds) preamble. intros l. induction l as [|d l IH]; intros p; cbn [fold_left flat_map].
  - now rewrite app_nil_r.
  - rewrite IH. unfold define_line at 2. now rewrite <- !app_assoc.
Qed.

Fixpoint send (q : lex) (s : str) : lex := match s with [] => q | c :: r => send (fst (lex_step q c)) r end.
Fixpoint sout (q : lex) (s : str) : str := match s with [] => [] | c :: r => snd (lex_step q c) ++ sout (fst (lex_step q c)) r end.
Lemma strip_app : forall a q b, strip q (a ++ b) = sout q a ++ strip (send q a) b.
Proof. induction a as [|c a IH]; intros q b; [reflexivity|]. cbn [app strip sout send]. rewrite IH, app_assoc. reflexivity. Qed.
Lemma strip_clean : forall s, without "/"%char s -> strip Code s = s.
Proof.
  induction s as [|c s IH]; intros W; [reflexivity|]. cbn [strip lex_step]. rewrite eqb_no by (intros ->; apply W; now left). cbn [fst snd app].
  f_equal. apply IH. intros I. apply W. now right.
Qed.

Lemma lines_split : forall a cur b, lines_from cur (a ++ NL :: b) = lines_from cur a ++ lines_from [] b.
Proof.
  induction a as [|c a IH]; intros cur b; cbn [app lines_from].
  - rewrite Ascii.eqb_refl. reflexivity.
  - destruct (Ascii.eqb c NL); [|apply IH]. cbn [app]. f_equal. apply IH.
Qed.
Lemma lines_one : forall s cur, without NL s -> lines_from cur s = [cur ++ s].
Proof.
  induction s as [|c s IH]; intros cur W; cbn [lines_from]; [now rewrite app_nil_r|].
  rewrite eqb_no by (intros ->; apply W; now left). rewrite IH by (intros I; apply W; now right). now rewrite <- app_assoc.
Qed.

Definition clean (d : str) : Prop := d <> [] /\ without SEMI d /\ without NL d /\ without "/"%char d.

Lemma without_lit : forall c s, mem c (lit s) = false -> without c (lit s).
Proof.
  intros c s. generalize (lit s). intros l. induction l as [|x l IH]; intros M I; [destruct I|]. cbn [mem] in M. apply orb_false_elim in M. destruct M as (A & B).
  destruct I as [->|I]; [rewrite Ascii.eqb_refl in A; discriminate|exact (IH B I)].
Qed.
Lemma clean_lit : forall s, s <> ""%string -> mem SEMI (lit s) = false -> mem NL (lit s) = false -> mem "/"%char (lit s) = false -> clean (lit s).
Proof.
  intros s N A B C. split; [destruct s; [congruence|discriminate]|]. split; [exact (without_lit _ _ A)|]. split; [exact (without_lit _ _ B)|exact (without_lit _ _ C)].
Qed.

Lemma lines_defs : forall ds cur, Forall clean ds -> flat_map define_of (lines_from cur (flat_map define_line ds)) = define_of cur ++ map name_of ds.
Proof.
  induction ds as [|d ds IH]; intros cur F.
  - cbn [flat_map lines_from map]. reflexivity.
  - inversion F as [|? ? (N & S & L & H) F']; subst. cbn [flat_map]. unfold define_line at 1. unfold nl. cbn [app]. cbn [lines_from]. rewrite Ascii.eqb_refl. cbn [flat_map].
    f_equal. replace ((lit "#define " ++ d ++ [NL]) ++ flat_map define_line ds) with ((lit "#define " ++ d) ++ NL :: flat_map define_line ds) by (now rewrite <- !app_assoc).
    rewrite lines_split, flat_map_app, IH by exact F'. rewrite lines_one.
    + reflexivity.
    + intros I. apply in_app_or in I. destruct I as [I|I]; [|exact (L I)]. revert I. apply (without_lit NL "#define "). reflexivity.
Qed.

Lemma defs_no_slash : forall ds, Forall clean ds -> without "/"%char (flat_map define_line ds).
Proof.
  intros ds F I. apply in_flat_map in I. destruct I as (d & D & I). rewrite Forall_forall in F. destruct (F d D) as (_ & _ & _ & H).
  unfold define_line in I. apply in_app_or in I. destruct I as [[E|[]]|I]; [discriminate E|]. apply in_app_or in I. destruct I as [I|I].
  - revert I. apply (without_lit "/"%char "#define "). reflexivity.
  - apply in_app_or in I. destruct I as [I|[E|[]]]; [exact (H I)|discriminate E].
Qed.
Lemma defs_no_semi : forall ds, Forall clean ds -> without SEMI (flat_map define_line ds).
Proof.
  intros ds F I. apply in_flat_map in I. destruct I as (d & D & I). rewrite Forall_forall in F. destruct (F d D) as (_ & H & _ & _).
  unfold define_line in I. apply in_app_or in I. destruct I as [[E|[]]|I]; [discriminate E|]. apply in_app_or in I. destruct I as [I|I].
  - revert I. apply (without_lit SEMI "#define "). reflexivity.
  - apply in_app_or in I. destruct I as [I|[E|[]]]; [exact (H I)|discriminate E].
Qed.

Lemma preamble_lines : exists Q, sout Code preamble = Q ++ [NL] /\ flat_map define_of (lines_from [] Q) = [].
Proof. exists (removelast (sout Code preamble)). split; vm_compute; reflexivity. Qed.

(** what a header generated from clean definitions defines: these, whatever they are *)
Lemma macros_content : forall ds, Forall clean (elements ds) -> macros (generated_content ds) = map name_of (elements ds).
Proof.
  intros ds F. rewrite content_of. unfold macros. rewrite strip_app. replace (send Code preamble) with Code by (vm_compute; reflexivity).
  rewrite strip_clean by (apply defs_no_slash; exact F). destruct preamble_lines as (Q & E & D). rewrite E, <- app_assoc. cbn [app].
  rewrite lines_split, flat_map_app, D. cbn [app]. rewrite lines_defs by exact F. reflexivity.
Qed.

Lemma without_mem : forall c l, mem c l = false -> without c l.
Proof.
  intros c. induction l as [|x l IH]; intros M I; [destruct I|]. cbn [mem] in M. apply orb_false_elim in M. destruct M as (A & B).
  destruct I as [->|I]; [rewrite Ascii.eqb_refl in A; discriminate|exact (IH B I)].
Qed.
Lemma str_eqb_eq' : forall a b, str_eqb a b = true <-> a = b.
Proof.
  induction a as [|x a IH]; intros [|y b]; cbn; split; intros H; try reflexivity; try discriminate.
  - apply andb_prop in H. destruct H as (E & H). apply Ascii.eqb_eq in E. apply IH in H. now subst.
  - injection H as -> ->. rewrite Ascii.eqb_refl. cbn. now apply IH.
Qed.
Lemma generated : forall cur ds, Forall clean (elements ds) -> fst (generate cur ds) = generated_content ds.
Proof.
  intros cur ds F. unfold generate. destruct (str_eqb _ (generated_content ds)) eqn:E.
  - cbn [fst]. apply str_eqb_eq' in E. exact E.
  - cbn [fst]. unfold elements. rewrite elements_one.
    + cbn [app]. destruct (generated_content ds); [reflexivity|]. cbn [concat]. now rewrite app_nil_r.
    + rewrite content_of. intros I. apply in_app_or in I. destruct I as [I|I]; [|exact (defs_no_semi _ F I)].
      revert I. apply without_mem. vm_compute. reflexivity.
Qed.
