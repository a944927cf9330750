(** C146: the options chosen at configuration are what the library and its users are compiled with. *)
From Coq Require Import Ascii String List Bool.
From Verif.Base Require Import Bytes.
From Verif.Model Require Import BuildOptions.
From Verif.Proofs Require Import BuildOptionsFacts.
Import ListNotations.
Local Open Scope list_scope.

(** the macros an option stands for, after the documentation at the head of Options.cmake *)
Inductive chosen (p : platform) (o : options) : string -> string -> Prop :=
| ch_levels : USE_DYNAMIC_LOGGING_LEVELS o = true -> chosen p o "G3_DYNAMIC_LOGGING" ""
| ch_dbug : CHANGE_G3LOG_DEBUG_TO_DBUG o = true -> chosen p o "CHANGE_G3LOG_DEBUG_TO_DBUG" ""
| ch_dbug_name : CHANGE_G3LOG_DEBUG_TO_DBUG o = true -> chosen p o "G3LOG_DEBUG" "DBUG"
| ch_debug_name : CHANGE_G3LOG_DEBUG_TO_DBUG o = false -> chosen p o "G3LOG_DEBUG" "DEBUG"
| ch_funcsig : WINDOWS_FUNCSIG o = true -> chosen p o "WINDOWS_FUNCSIG" ""
| ch_pretty : PRETTY_FUNCTION o = true -> chosen p o "PRETTY_FUNCTION" ""
| ch_size : USE_G3_DYNAMIC_MAX_MESSAGE_SIZE o = true -> chosen p o "G3_DYNAMIC_MAX_MESSAGE_SIZE" ""
| ch_full : G3_LOG_FULL_FILENAME o = true -> chosen p o "G3_LOG_FULL_FILENAME" ""
| ch_signals : ENABLE_FATAL_SIGNALHANDLING o = false -> chosen p o "DISABLE_FATAL_SIGNALHANDLING" ""
| ch_vectored : p <> Gnu -> ENABLE_VECTORED_EXCEPTIONHANDLING o = false -> chosen p o "DISABLE_VECTORED_EXCEPTIONHANDLING" ""
| ch_break : p <> Gnu -> DEBUG_BREAK_AT_FATAL_SIGNAL o = true -> chosen p o "DEBUG_BREAK_AT_FATAL_SIGNAL" "".
(** the header after CMake has run; [cur]: what was there before *)
Definition header (cur : option str) (p : platform) (o : options) : str := fst (configure cur p o).
Definition untouched (cur : option str) (p : platform) (o : options) : Prop := snd (configure cur p o) = false.

(** the definitions as a list *)
Definition when (b : bool) (d : string) : list str := if b then [lit d] else [].
Definition defs (p : platform) (o : options) : list str :=
  (((((((when (USE_DYNAMIC_LOGGING_LEVELS o) "G3_DYNAMIC_LOGGING"
  ++ (if CHANGE_G3LOG_DEBUG_TO_DBUG o then [lit "CHANGE_G3LOG_DEBUG_TO_DBUG"; lit "G3LOG_DEBUG DBUG"] else [lit "G3LOG_DEBUG DEBUG"]))
  ++ when (WINDOWS_FUNCSIG o) "WINDOWS_FUNCSIG") ++ when (PRETTY_FUNCTION o) "PRETTY_FUNCTION")
  ++ when (USE_G3_DYNAMIC_MAX_MESSAGE_SIZE o) "G3_DYNAMIC_MAX_MESSAGE_SIZE") ++ when (G3_LOG_FULL_FILENAME o) "G3_LOG_FULL_FILENAME")
  ++ when (negb (ENABLE_FATAL_SIGNALHANDLING o)) "DISABLE_FATAL_SIGNALHANDLING")
  ++ match p with Gnu => [] | _ => when (negb (ENABLE_VECTORED_EXCEPTIONHANDLING o)) "DISABLE_VECTORED_EXCEPTIONHANDLING"
                                   ++ when (DEBUG_BREAK_AT_FATAL_SIGNAL o) "DEBUG_BREAK_AT_FATAL_SIGNAL" end).

Lemma clean_elem : forall l s, s <> ""%string -> mem SEMI (lit s) = false -> elements (append l (lit s)) = elements l ++ [lit s].
Proof. intros l s N M. apply elements_append; [destruct s; [congruence|discriminate]|exact (without_lit _ _ M)]. Qed.
Lemma append_if_elem : forall b d l, d <> ""%string -> mem SEMI (lit d) = false -> elements (append_if b d l) = elements l ++ when b d.
Proof. intros [] d l N M; unfold append_if, when; [apply clean_elem; assumption|now rewrite app_nil_r]. Qed.
Lemma defs_elements : forall p o, elements (G3_DEFINITIONS p o) = defs p o.
Proof.
  intros p o. unfold G3_DEFINITIONS, defs.
  assert (B : forall l, elements (if CHANGE_G3LOG_DEBUG_TO_DBUG o then append (append l (lit "CHANGE_G3LOG_DEBUG_TO_DBUG")) (lit "G3LOG_DEBUG DBUG") else append l (lit "G3LOG_DEBUG DEBUG"))
    = elements l ++ (if CHANGE_G3LOG_DEBUG_TO_DBUG o then [lit "CHANGE_G3LOG_DEBUG_TO_DBUG"; lit "G3LOG_DEBUG DBUG"] else [lit "G3LOG_DEBUG DEBUG"])).
  { intros l. destruct (CHANGE_G3LOG_DEBUG_TO_DBUG o); rewrite !clean_elem by (discriminate || reflexivity); [|reflexivity]. rewrite <- app_assoc. reflexivity. }
  destruct p; rewrite ?append_if_elem by (discriminate || reflexivity); rewrite B; rewrite ?append_if_elem by (discriminate || reflexivity); cbn [elements elements_from app];
    rewrite ?app_nil_r; try rewrite <- (app_assoc _ (when (negb (ENABLE_VECTORED_EXCEPTIONHANDLING o)) _)); reflexivity.
Qed.
Lemma when_clean : forall b d, clean (lit d) -> Forall clean (when b d).
Proof. intros [] d C; unfold when; [constructor; [exact C|constructor]|constructor]. Qed.
Lemma defs_clean : forall p o, Forall clean (elements (G3_DEFINITIONS p o)).
Proof.
  intros p o. rewrite defs_elements. unfold defs. rewrite !Forall_app.
  repeat split; try (apply when_clean; apply clean_lit; [discriminate|reflexivity|reflexivity|reflexivity]).
  - destruct (CHANGE_G3LOG_DEBUG_TO_DBUG o); repeat constructor; try (apply clean_lit; [discriminate|reflexivity|reflexivity|reflexivity]); try discriminate;
      first [exact (without_lit _ _ eq_refl)].
  - destruct p; rewrite ?Forall_app; repeat split; try constructor; apply when_clean; apply clean_lit; [discriminate|reflexivity|reflexivity|reflexivity|discriminate|reflexivity|reflexivity|reflexivity
      |discriminate|reflexivity|reflexivity|reflexivity|discriminate|reflexivity|reflexivity|reflexivity].
Qed.
Lemma header_macros : forall cur p o, macros (header cur p o) = map name_of (defs p o).
Proof. intros cur p o. unfold header, configure. rewrite generated by apply defs_clean. rewrite macros_content by apply defs_clean. now rewrite defs_elements. Qed.

(** whatever header was there before: the header defines exactly the macros of the chosen options *)
Theorem C146_macros : forall cur p o n b, In (n, b) (macros (header cur p o)) <-> exists n' b', chosen p o n' b' /\ n = lit n' /\ b = lit b'.
Proof.
  intros cur p o n b. rewrite header_macros. split.
  - intros I. apply in_map_iff in I. destruct I as (d & E & I). unfold defs in I.
    assert (W : forall c s, In d (when c s) -> c = true /\ d = lit s) by (intros [] s H; unfold when in H; [destruct H as [<-|[]]; auto|destruct H]).
    repeat rewrite in_app_iff in I.
    assert (K : forall n' b', chosen p o n' b' -> name_of d = (lit n', lit b') -> exists n' b', chosen p o n' b' /\ n = lit n' /\ b = lit b').
    { intros n' b' C N. exists n', b'. rewrite N in E. inversion E. auto. }
    destruct I as [[[[[[[I|I]|I]|I]|I]|I]|I]|I].
    + destruct (W _ _ I) as (T & ->). exact (K _ _ (ch_levels p o T) eq_refl).
    + destruct (CHANGE_G3LOG_DEBUG_TO_DBUG o) eqn:T.
      * destruct I as [<-|[<-|[]]]; [exact (K _ _ (ch_dbug p o T) eq_refl)|exact (K _ _ (ch_dbug_name p o T) eq_refl)].
      * destruct I as [<-|[]]. exact (K _ _ (ch_debug_name p o T) eq_refl).
    + destruct (W _ _ I) as (T & ->). exact (K _ _ (ch_funcsig p o T) eq_refl).
    + destruct (W _ _ I) as (T & ->). exact (K _ _ (ch_pretty p o T) eq_refl).
    + destruct (W _ _ I) as (T & ->). exact (K _ _ (ch_size p o T) eq_refl).
    + destruct (W _ _ I) as (T & ->). exact (K _ _ (ch_full p o T) eq_refl).
    + destruct (W _ _ I) as (T & ->). apply negb_true_iff in T. exact (K _ _ (ch_signals p o T) eq_refl).
    + destruct p; [| |destruct I]; apply in_app_or in I; (destruct I as [I|I]; destruct (W _ _ I) as (T & ->); [apply negb_true_iff in T|]).
      * exact (K _ _ (ch_vectored Msvc o (fun E : Msvc = Gnu => ltac:(discriminate E)) T) eq_refl).
      * exact (K _ _ (ch_break Msvc o (fun E : Msvc = Gnu => ltac:(discriminate E)) T) eq_refl).
      * exact (K _ _ (ch_vectored Mingw o (fun E : Mingw = Gnu => ltac:(discriminate E)) T) eq_refl).
      * exact (K _ _ (ch_break Mingw o (fun E : Mingw = Gnu => ltac:(discriminate E)) T) eq_refl).
  - intros (n' & b' & C & -> & ->). apply in_map_iff.
    assert (W : forall s, In (lit s) (when true s)) by (intros s; now left).
    destruct C as [T|T|T|T|T|T|T|T|T|N T|N T];
      [exists (lit "G3_DYNAMIC_LOGGING")|exists (lit "CHANGE_G3LOG_DEBUG_TO_DBUG")|exists (lit "G3LOG_DEBUG DBUG")|exists (lit "G3LOG_DEBUG DEBUG")|exists (lit "WINDOWS_FUNCSIG")
      |exists (lit "PRETTY_FUNCTION")|exists (lit "G3_DYNAMIC_MAX_MESSAGE_SIZE")|exists (lit "G3_LOG_FULL_FILENAME")|exists (lit "DISABLE_FATAL_SIGNALHANDLING")
      |exists (lit "DISABLE_VECTORED_EXCEPTIONHANDLING")|exists (lit "DEBUG_BREAK_AT_FATAL_SIGNAL")]; (split; [reflexivity|]); unfold defs; repeat rewrite in_app_iff; rewrite T; cbn [negb].
    + left; left; left; left; left; left; left. apply W.
    + left; left; left; left; left; left; right. now left.
    + left; left; left; left; left; left; right. right; now left.
    + left; left; left; left; left; left; right. now left.
    + left; left; left; left; left; right. apply W.
    + left; left; left; left; right. apply W.
    + left; left; left; right. apply W.
    + left; left; right. apply W.
    + left; right. apply W.
    + right. destruct p; [apply in_or_app; left; apply W|apply in_or_app; left; apply W|congruence].
    + right. destruct p; [apply in_or_app; right; apply W|apply in_or_app; right; apply W|congruence].
Qed.
Print Assumptions C146_macros.

(** a line of blanks; what the compiler sees of a text: its lines without comments that are not blank *)
Definition blank (s : str) : bool := forallb (fun c => Ascii.eqb c " "%char) s.
Definition seen (text : str) : list str := filter (fun s => negb (blank s)) (lines_from [] (strip Code text)).
Lemma seen_defs : forall ds cur, Forall clean ds ->
  filter (fun s => negb (blank s)) (lines_from cur (flat_map define_line ds)) =
  (if blank cur then [] else [cur]) ++ map (fun d => lit "#define " ++ d) ds.
Proof.
  induction ds as [|d ds IH]; intros cur F.
  - cbn [flat_map lines_from map filter]. destruct (blank cur); reflexivity.
  - inversion F as [|? ? (N & S & L & H) F']; subst. cbn [flat_map]. unfold define_line at 1. unfold nl. cbn [app]. cbn [lines_from]. rewrite Ascii.eqb_refl. cbn [filter].
    replace ((lit "#define " ++ d ++ [NL]) ++ flat_map define_line ds) with ((lit "#define " ++ d) ++ NL :: flat_map define_line ds) by (now rewrite <- !app_assoc).
    rewrite lines_split, filter_app, IH by exact F'. rewrite lines_one.
    + cbn. destruct (blank cur); reflexivity.
    + intros I. apply in_app_or in I. destruct I as [I|I]; [|exact (L I)]. revert I. apply (without_lit NL "#define "). reflexivity.
Qed.
(** besides the definitions there is only the pragma in the header: the licence text is a comment to its end, and nothing is declared *)
Theorem C146_nothing_else : forall cur p o, seen (header cur p o) = lit "#pragma once" :: map (fun d => lit "#define " ++ d) (elements (G3_DEFINITIONS p o)).
Proof.
  intros cur p o. unfold header, configure. rewrite generated by apply defs_clean. rewrite content_of. unfold seen. rewrite strip_app.
  replace (send Code preamble) with Code by (vm_compute; reflexivity). rewrite strip_clean by (apply defs_no_slash, defs_clean).
  assert (Q : exists Q, sout Code preamble = Q ++ [NL] /\ filter (fun s => negb (blank s)) (lines_from [] Q) = [lit "#pragma once"])
    by (exists (removelast (sout Code preamble)); split; vm_compute; reflexivity).
  destruct Q as (Q & E & D). rewrite E, <- app_assoc. cbn [app]. rewrite lines_split, filter_app, D, seen_defs by apply defs_clean. reflexivity.
Qed.
Print Assumptions C146_nothing_else.
Example C146_nothing_else_ex : seen (header None Gnu default_options) = [lit "#pragma once"; lit "#define G3LOG_DEBUG DEBUG"].
Proof. vm_compute. reflexivity. Qed.

(** the header does not depend on the one before, and is not touched when it is right already: nothing is compiled again *)
Theorem C146_again : forall cur p o, header cur p o = header None p o /\ (untouched cur p o <-> cur = Some (header None p o)).
Proof.
  intros cur p o. assert (E : header None p o = generated_content (G3_DEFINITIONS p o)) by (unfold header, configure; apply generated, defs_clean).
  split; [rewrite E; unfold header, configure; apply generated, defs_clean|]. rewrite E. unfold untouched, configure, generate.
  assert (NE : generated_content (G3_DEFINITIONS p o) <> []) by (rewrite content_of; discriminate).
  destruct (str_eqb _ (generated_content (G3_DEFINITIONS p o))) eqn:Q; cbn [snd].
  - apply str_eqb_eq' in Q. destruct cur as [c|]; [|congruence]. subst c. split; reflexivity.
  - split; [discriminate|]. intros ->. rewrite (proj2 (str_eqb_eq' _ _) eq_refl) in Q. discriminate.
Qed.
Print Assumptions C146_again.

Lemma lit_inj : forall a b, lit a = lit b -> a = b.
Proof.
  unfold lit. induction a as [|x a IH]; intros [|y b] H; try reflexivity; try discriminate H. cbn in H. injection H as -> H. f_equal. exact (IH b H).
Qed.
Lemma chosen_macro : forall cur p o n b, In (lit n, lit b) (macros (header cur p o)) <-> chosen p o n b.
Proof.
  intros cur p o n b. rewrite C146_macros. split.
  - intros (n' & b' & C & N & B). apply lit_inj in N, B. now subst.
  - intros C. exists n, b. auto.
Qed.
(** no macro is defined twice *)
Lemma nodup_when : forall (l : list (bool * str)), NoDup (map snd l) -> NoDup (flat_map (fun x : bool * str => if fst x then [snd x] else []) l).
Proof.
  induction l as [|[c s] l IH]; intros N; [constructor|]. cbn [flat_map fst snd map] in *. inversion N as [|? ? A B]; subst. destruct c; cbn [app]; [|exact (IH B)].
  constructor; [|exact (IH B)]. intros I. apply A. apply in_flat_map in I. destruct I as ([c t] & J & K). cbn [fst snd] in K. destruct c; [|destruct K].
  destruct K as [<-|[]]. change t with (snd (true, t)). apply in_map. exact J.
Qed.
Theorem C146_once : forall cur p o, NoDup (map fst (macros (header cur p o))).
Proof.
  intros cur p o. rewrite header_macros.
  set (w := match p with Gnu => false | _ => true end).
  assert (E : map fst (map name_of (defs p o)) = flat_map (fun x : bool * str => if fst x then [snd x] else [])
    [(USE_DYNAMIC_LOGGING_LEVELS o, lit "G3_DYNAMIC_LOGGING"); (CHANGE_G3LOG_DEBUG_TO_DBUG o, lit "CHANGE_G3LOG_DEBUG_TO_DBUG"); (true, lit "G3LOG_DEBUG");
     (WINDOWS_FUNCSIG o, lit "WINDOWS_FUNCSIG"); (PRETTY_FUNCTION o, lit "PRETTY_FUNCTION"); (USE_G3_DYNAMIC_MAX_MESSAGE_SIZE o, lit "G3_DYNAMIC_MAX_MESSAGE_SIZE");
     (G3_LOG_FULL_FILENAME o, lit "G3_LOG_FULL_FILENAME"); (negb (ENABLE_FATAL_SIGNALHANDLING o), lit "DISABLE_FATAL_SIGNALHANDLING");
     (w && negb (ENABLE_VECTORED_EXCEPTIONHANDLING o), lit "DISABLE_VECTORED_EXCEPTIONHANDLING"); (w && DEBUG_BREAK_AT_FATAL_SIGNAL o, lit "DEBUG_BREAK_AT_FATAL_SIGNAL")]).
  { unfold defs. rewrite !map_app. cbn [flat_map fst snd]. rewrite <- !app_assoc.
    assert (W : forall c s t, name_of (lit s) = (lit s, t) -> map fst (map name_of (when c s)) = if c then [lit s] else []) by (intros [] s t N; [cbn [when map]; rewrite N; reflexivity|reflexivity]).
    assert (P : map fst (map name_of match p with Gnu => [] | _ => when (negb (ENABLE_VECTORED_EXCEPTIONHANDLING o)) "DISABLE_VECTORED_EXCEPTIONHANDLING"
                                   ++ when (DEBUG_BREAK_AT_FATAL_SIGNAL o) "DEBUG_BREAK_AT_FATAL_SIGNAL" end)
      = (if w && negb (ENABLE_VECTORED_EXCEPTIONHANDLING o) then [lit "DISABLE_VECTORED_EXCEPTIONHANDLING"] else []) ++ (if w && DEBUG_BREAK_AT_FATAL_SIGNAL o then [lit "DEBUG_BREAK_AT_FATAL_SIGNAL"] else []) ++ []).
    { unfold w. destruct p, (ENABLE_VECTORED_EXCEPTIONHANDLING o), (DEBUG_BREAK_AT_FATAL_SIGNAL o); reflexivity. }
    rewrite P. rewrite !(W _ _ []) by reflexivity. destruct (CHANGE_G3LOG_DEBUG_TO_DBUG o); reflexivity. }
  rewrite E. apply nodup_when. vm_compute. repeat (constructor; [intros I; repeat (destruct I as [I|I]; [discriminate I|]); exact I|]). constructor.
Qed.
Print Assumptions C146_once.

(** headers differ whenever options differ that the platform has *)
Theorem C146_tell_apart : forall p o o', header None p o = header None p o' ->
  USE_DYNAMIC_LOGGING_LEVELS o = USE_DYNAMIC_LOGGING_LEVELS o' /\ CHANGE_G3LOG_DEBUG_TO_DBUG o = CHANGE_G3LOG_DEBUG_TO_DBUG o' /\ WINDOWS_FUNCSIG o = WINDOWS_FUNCSIG o' /\
  PRETTY_FUNCTION o = PRETTY_FUNCTION o' /\ USE_G3_DYNAMIC_MAX_MESSAGE_SIZE o = USE_G3_DYNAMIC_MAX_MESSAGE_SIZE o' /\ G3_LOG_FULL_FILENAME o = G3_LOG_FULL_FILENAME o' /\
  ENABLE_FATAL_SIGNALHANDLING o = ENABLE_FATAL_SIGNALHANDLING o' /\
  (p <> Gnu -> ENABLE_VECTORED_EXCEPTIONHANDLING o = ENABLE_VECTORED_EXCEPTIONHANDLING o' /\ DEBUG_BREAK_AT_FATAL_SIGNAL o = DEBUG_BREAK_AT_FATAL_SIGNAL o').
Proof.
  intros p o o' E.
  assert (C : forall n b, chosen p o n b <-> chosen p o' n b) by (intros n b; rewrite <- !(chosen_macro None), E; reflexivity).
  assert (B : forall x y : bool, (x = true <-> y = true) -> x = y) by (intros [] [] [H K]; try reflexivity; [symmetry; apply H; reflexivity|apply K; reflexivity]).
  assert (B' : forall x y : bool, (x = false <-> y = false) -> x = y) by (intros [] [] [H K]; try reflexivity; [apply K; reflexivity|symmetry; apply H; reflexivity]).
  split; [apply B; split; intros T; [pose proof (proj1 (C _ _) (ch_levels p o T)) as H|pose proof (proj2 (C _ _) (ch_levels p o' T)) as H]; inversion H; assumption|].
  split; [apply B; split; intros T; [pose proof (proj1 (C _ _) (ch_dbug p o T)) as H|pose proof (proj2 (C _ _) (ch_dbug p o' T)) as H]; inversion H; assumption|].
  split; [apply B; split; intros T; [pose proof (proj1 (C _ _) (ch_funcsig p o T)) as H|pose proof (proj2 (C _ _) (ch_funcsig p o' T)) as H]; inversion H; assumption|].
  split; [apply B; split; intros T; [pose proof (proj1 (C _ _) (ch_pretty p o T)) as H|pose proof (proj2 (C _ _) (ch_pretty p o' T)) as H]; inversion H; assumption|].
  split; [apply B; split; intros T; [pose proof (proj1 (C _ _) (ch_size p o T)) as H|pose proof (proj2 (C _ _) (ch_size p o' T)) as H]; inversion H; assumption|].
  split; [apply B; split; intros T; [pose proof (proj1 (C _ _) (ch_full p o T)) as H|pose proof (proj2 (C _ _) (ch_full p o' T)) as H]; inversion H; assumption|].
  split; [apply B'; split; intros T; [pose proof (proj1 (C _ _) (ch_signals p o T)) as H|pose proof (proj2 (C _ _) (ch_signals p o' T)) as H]; inversion H; assumption|].
  intros N. split.
  - apply B'; split; intros T; [pose proof (proj1 (C _ _) (ch_vectored p o N T)) as H|pose proof (proj2 (C _ _) (ch_vectored p o' N T)) as H]; inversion H; assumption.
  - apply B; split; intros T; [pose proof (proj1 (C _ _) (ch_break p o N T)) as H|pose proof (proj2 (C _ _) (ch_break p o' N T)) as H]; inversion H; assumption.
Qed.
Print Assumptions C146_tell_apart.

Lemma defined_app : forall a b n, defined (a ++ b) n = defined a n || defined b n.
Proof. intros a b n. unfold defined. apply existsb_app. Qed.
Lemma defined_chosen : forall cur p o n, defined (macros (header cur p o)) n = true <-> exists b, chosen p o n b.
Proof.
  intros cur p o n. unfold defined. rewrite existsb_exists. split.
  - intros ([m b] & I & E). apply str_eqb_eq' in E. cbn [fst] in E. subst m. apply C146_macros in I. destruct I as (n' & b' & C & N & _). apply lit_inj in N. subst n'. exists b'. exact C.
  - intros (b & C). exists (lit n, lit b). split; [now apply chosen_macro|]. apply str_eqb_eq'. reflexivity.
Qed.
Lemma not_defined : forall cur p o n, (forall b, ~ chosen p o n b) -> defined (macros (header cur p o)) n = false.
Proof. intros cur p o n N. destruct (defined (macros (header cur p o)) n) eqn:E; [|reflexivity]. apply defined_chosen in E. destruct E as (b & C). destruct (N b C). Qed.
(** the name of the debug level *)
Definition level_name (o : options) : string := if CHANGE_G3LOG_DEBUG_TO_DBUG o then "DBUG" else "DEBUG".

(** a program whose own macros clash with the name of the debug level is not compiled, and only then *)
Theorem C146_clash : forall cur p o program, (CHANGE_G3LOG_DEBUG_TO_DBUG o = false -> defined program "CHANGE_G3LOG_DEBUG_TO_DBUG" = false) ->
  (loglevels_hpp (header cur p o) program = None <-> defined program (level_name o) = true).
Proof.
  intros cur p o program H. unfold loglevels_hpp, level_name. rewrite !defined_app.
  rewrite (not_defined cur p o "DBUG") by (intros b C; inversion C). rewrite (not_defined cur p o "DEBUG") by (intros b C; inversion C). rewrite !orb_false_r.
  destruct (CHANGE_G3LOG_DEBUG_TO_DBUG o) eqn:T.
  - rewrite (proj2 (defined_chosen cur p o "CHANGE_G3LOG_DEBUG_TO_DBUG")) by (exists ""%string; apply ch_dbug; exact T). rewrite orb_true_r.
    destruct (defined program "DBUG"); split; congruence.
  - rewrite H by reflexivity. rewrite (not_defined cur p o "CHANGE_G3LOG_DEBUG_TO_DBUG") by (intros b C; inversion C; congruence). cbn [orb].
    destruct (defined program "DEBUG"); split; congruence.
Qed.
Print Assumptions C146_clash.

Lemma find_app : forall (A : Type) (f : A -> bool) a b, existsb f a = false -> List.find f (a ++ b) = List.find f b.
Proof. intros A f a b. induction a as [|x a IH]; intros E; [reflexivity|]. cbn [existsb] in E. apply orb_false_elim in E. destruct E as (X & E). cbn [app List.find]. rewrite X. exact (IH E). Qed.
Lemma find_none' : forall (A : Type) (f : A -> bool) l, existsb f l = false -> List.find f l = None.
Proof. intros A f l E. rewrite <- (app_nil_r l), find_app by exact E. reflexivity. Qed.
Lemma existsb_filter : forall (A : Type) (f g : A -> bool) l, existsb f l = false -> existsb f (filter g l) = false.
Proof.
  intros A f g l. induction l as [|x l IH]; intros E; [reflexivity|]. cbn [existsb] in E. apply orb_false_elim in E. destruct E as (X & E). cbn [filter].
  destruct (g x); [cbn [existsb]; rewrite X; exact (IH E)|exact (IH E)].
Qed.

(** a program that is compiled has the debug level under the name that was chosen *)
Theorem C146_named_partial : forall cur p o program ms, (CHANGE_G3LOG_DEBUG_TO_DBUG o = false -> defined program "CHANGE_G3LOG_DEBUG_TO_DBUG" = false) ->
  defined program "G3LOG_DEBUG" = false -> loglevels_hpp (header cur p o) program = Some ms -> debug_level ms = lit (level_name o).
Proof.
  intros cur p o program ms H G L.
  assert (N : defined program (level_name o) = false).
  { destruct (defined program (level_name o)) eqn:D; [|reflexivity]. apply (C146_clash cur p o program H) in D. congruence. }
  assert (E : ms = program ++ macros (header cur p o)).
  { unfold loglevels_hpp in L. cbn zeta in L. destruct (defined _ "CHANGE_G3LOG_DEBUG_TO_DBUG") in L; [destruct (defined _ "DBUG") in L|destruct (defined _ "DEBUG") in L]; try discriminate L; injection L as <-; reflexivity. }
  subst ms. unfold debug_level. rewrite app_length.
  assert (P : exists k, (List.length program + List.length (macros (header cur p o)) = S k)%nat).
  { assert (D : defined (macros (header cur p o)) "G3LOG_DEBUG" = true).
    { apply defined_chosen. destruct (CHANGE_G3LOG_DEBUG_TO_DBUG o) eqn:T; [exists "DBUG"%string; now apply ch_dbug_name|exists "DEBUG"%string; now apply ch_debug_name]. }
    destruct (macros (header cur p o)) as [|m r]; [discriminate D|]. cbn [List.length]. rewrite PeanoNat.Nat.add_succ_r. eexists; reflexivity. }
  destruct P as (k & ->). cbn [expand]. rewrite find_app by exact G.
  destruct (List.find (fun m => str_eqb (fst m) (lit "G3LOG_DEBUG")) (macros (header cur p o))) as [[m b]|] eqn:F.
  2: { exfalso. assert (D : exists b, chosen p o "G3LOG_DEBUG" b).
       { destruct (CHANGE_G3LOG_DEBUG_TO_DBUG o) eqn:T; [exists "DBUG"%string; now apply ch_dbug_name|exists "DEBUG"%string; now apply ch_debug_name]. }
       destruct D as (b & C). apply (chosen_macro cur) in C. apply (List.find_none _ _ F) in C. cbn [fst] in C. rewrite (proj2 (str_eqb_eq' _ _) eq_refl) in C. discriminate. }
  apply find_some in F. destruct F as (I & E). cbn [fst] in E. apply str_eqb_eq' in E. subst m. apply C146_macros in I. destruct I as (n' & b' & C & NN & ->).
  apply lit_inj in NN. subst n'. cbn [snd].
  assert (B : b' = level_name o) by (unfold level_name; inversion C as [| |T|T| | | | | | |]; rewrite T; reflexivity). subst b'.
  rewrite find_none'; [reflexivity|]. apply existsb_filter. change (defined (program ++ macros (header cur p o)) (level_name o) = false). rewrite defined_app, N. cbn [orb].
  apply not_defined. intros b D. unfold level_name in D. destruct (CHANGE_G3LOG_DEBUG_TO_DBUG o); inversion D.
Qed.
Print Assumptions C146_named_partial.

(** the comment in loglevels.hpp:11-13: users whose DEBUG clashes can use the define CHANGE_G3LOG_DEBUG_TO_DBUG.  With a library configured without that
    option, a program that does so passes the check, and its own macro replaces the name of the level *)
Theorem C146_define_refuted : exists program ms, defined program "DEBUG" = true /\ defined program "CHANGE_G3LOG_DEBUG_TO_DBUG" = true /\
  loglevels_hpp (header None Gnu default_options) program = Some ms /\ debug_level ms = lit "1".
Proof.
  exists [(lit "DEBUG", lit "1"); (lit "CHANGE_G3LOG_DEBUG_TO_DBUG", lit "1")]. eexists. split; [reflexivity|]. split; [reflexivity|].
  split; [unfold loglevels_hpp; rewrite header_macros; vm_compute; reflexivity|]. vm_compute. reflexivity.
Qed.
Print Assumptions C146_define_refuted.

(** what names the function in the entries *)
Theorem C146_function : forall cur p o program, defined program "WINDOWS_FUNCSIG" = false -> defined program "PRETTY_FUNCTION" = false ->
  G3LOG_PRETTY_FUNCTION p (program ++ macros (header cur p o)) =
  match p with Msvc => if WINDOWS_FUNCSIG o then FUNCSIG else FUNCTION | _ => if PRETTY_FUNCTION o then PRETTY else FUNCTION end.
Proof.
  intros cur p o program A B. unfold G3LOG_PRETTY_FUNCTION. rewrite !defined_app, A, B. cbn [orb].
  assert (W : defined (macros (header cur p o)) "WINDOWS_FUNCSIG" = WINDOWS_FUNCSIG o).
  { destruct (WINDOWS_FUNCSIG o) eqn:T; [apply defined_chosen; exists ""%string; now apply ch_funcsig|apply not_defined; intros b C; inversion C; congruence]. }
  assert (P : defined (macros (header cur p o)) "PRETTY_FUNCTION" = PRETTY_FUNCTION o).
  { destruct (PRETTY_FUNCTION o) eqn:T; [apply defined_chosen; exists ""%string; now apply ch_pretty|apply not_defined; intros b C; inversion C; congruence]. }
  rewrite W, P. reflexivity.
Qed.
Print Assumptions C146_function.

(** the defaults: one macro *)
Example C146_ex : macros (header None Gnu default_options) = [(lit "G3LOG_DEBUG", lit "DEBUG")].
Proof. rewrite header_macros. reflexivity. Qed.
Example C146_ex_all : map fst (macros (header (Some (lit "old")) Msvc (mkOptions true true true true true true false false true))) =
  [lit "G3_DYNAMIC_LOGGING"; lit "CHANGE_G3LOG_DEBUG_TO_DBUG"; lit "G3LOG_DEBUG"; lit "WINDOWS_FUNCSIG"; lit "PRETTY_FUNCTION"; lit "G3_DYNAMIC_MAX_MESSAGE_SIZE";
   lit "G3_LOG_FULL_FILENAME"; lit "DISABLE_FATAL_SIGNALHANDLING"; lit "DISABLE_VECTORED_EXCEPTIONHANDLING"; lit "DEBUG_BREAK_AT_FATAL_SIGNAL"].
Proof. rewrite header_macros. reflexivity. Qed.
Example C146_ex_clash : loglevels_hpp (header None Gnu default_options) [(lit "DEBUG", lit "1")] = None.
Proof. unfold loglevels_hpp. rewrite header_macros. reflexivity. Qed.
Example C146_ex_named : exists ms, loglevels_hpp (header None Gnu default_options) [(lit "NDEBUG", [])] = Some ms /\ debug_level ms = lit "DEBUG".
Proof. eexists. split; [unfold loglevels_hpp; rewrite header_macros; reflexivity|reflexivity]. Qed.
(** the file that a default build writes, to its last byte *)
Example C146_ex_text : header None Gnu default_options = preamble ++ nl ++ lit "#define G3LOG_DEBUG DEBUG" ++ nl.
Proof. unfold header, configure. rewrite generated by apply defs_clean. rewrite content_of, defs_elements. reflexivity. Qed.
