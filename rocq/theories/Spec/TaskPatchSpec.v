(** What the C++ standard says about std::packaged_task<void()> ([futures.task]). *)
From Coq Require Import List Bool PeanoNat.
From Verif.Model Require Import TaskPatch.
Import ListNotations.

(** a packaged_task has a shared state and a stored function, or neither *)
Record smem := mkS { s_obj : nat -> option (option (nat * nat)); s_sh : nat -> shared; s_calls : list nat; s_now : nat }.
Definition s_init : smem := mkS (fun _ => None) (fun _ => new_shared) [] 0.
Definition state_of (t : option (nat * nat)) : option nat := option_map fst t.

Definition sstep (beh : behaviour) (s : smem) (o : top) : option (smem * result) :=
  let now := s_now s in
  match o with
  | TDefault i =>
      match s_obj s i with
      | Some _ => None
      | None => Some (mkS (set (s_obj s) i (Some None)) (s_sh s) (s_calls s) (S now), Done)
      end
  | TNew i f =>
      match s_obj s i with
      | Some _ => None
      | None => Some (mkS (set (s_obj s) i (Some (Some (now, f)))) (set (s_sh s) now new_shared) (s_calls s) (S now), Done)
      end
  | TMove i j =>
      match s_obj s i, s_obj s j with
      | Some t, None => Some (mkS (set (set (s_obj s) i (Some None)) j (Some t)) (s_sh s) (s_calls s) (S now), Done)
      | _, _ => None
      end
  | TAssign i j =>
      if Nat.eqb i j then None else
      match s_obj s i, s_obj s j with
      | Some t, Some u => Some (mkS (set (set (s_obj s) i (Some None)) j (Some t)) (abandon (s_sh s) (state_of u)) (s_calls s) (S now), Done)
      | _, _ => None
      end
  | TValid i =>
      match s_obj s i with
      | None => None
      | Some t => Some (mkS (s_obj s) (s_sh s) (s_calls s) (S now), Answer (match t with Some _ => true | None => false end))
      end
  | TGetFuture i =>
      match s_obj s i with
      | None => None
      | Some t => let (sh, r) := promise_get_future (s_sh s) (state_of t) in Some (mkS (s_obj s) sh (s_calls s) (S now), r)
      end
  | TCall i =>
      match s_obj s i with
      | None => None
      | Some None => Some (mkS (s_obj s) (s_sh s) (s_calls s) (S now), Throws NoState)
      | Some (Some (k, f)) =>
          match sh_content (s_sh s k) with
          | Waiting =>
              let c := match beh (length (s_calls s)) f with Some e => HasException e | None => HasValue end in
              Some (mkS (s_obj s) (set (s_sh s) k (mkSh c (sh_taken (s_sh s k)))) (s_calls s ++ [f]) (S now), Done)
          | _ => Some (mkS (s_obj s) (s_sh s) (s_calls s) (S now), Throws AlreadySatisfied)
          end
      end
  | TReset i =>
      match s_obj s i with
      | None => None
      | Some None => Some (mkS (s_obj s) (s_sh s) (s_calls s) (S now), Throws NoState)
      | Some (Some (k, f)) => Some (mkS (set (s_obj s) i (Some (Some (now, f)))) (set (abandon (s_sh s) (Some k)) now new_shared) (s_calls s) (S now), Done)
      end
  | TDestroy i =>
      match s_obj s i with
      | None => None
      | Some t => Some (mkS (set (s_obj s) i None) (abandon (s_sh s) (state_of t)) (s_calls s) (S now), Done)
      end
  end.
Fixpoint srun (beh : behaviour) (s : smem) (os : list top) : option (smem * list result) :=
  match os with
  | [] => Some (s, [])
  | o :: r => match sstep beh s o with
              | None => None
              | Some (s', x) => match srun beh s' r with None => None | Some (s'', xs) => Some (s'', x :: xs) end
              end
  end.

(** the same results, the same calls of functions, and every future that was given away holds the same *)
Definition same_outcome (p : option (pmem * list result)) (s : option (smem * list result)) : Prop :=
  match p, s with
  | Some (p, rs), Some (s, rs') => rs = rs' /\ p_calls p = s_calls s /\ forall k, In (GaveFuture k) rs -> sh_content (p_sh p k) = sh_content (s_sh s k)
  | None, None => True
  | _, _ => False
  end.

(** a use of the class without errors, as the standard sees it: no operation throws, no future holds an exception, and reset is not used *)
Definition smooth (beh : behaviour) (os : list top) : Prop :=
  exists s rs, srun beh s_init os = Some (s, rs) /\ (forall x, ~ In (Throws x) rs) /\
    (forall k e, sh_content (s_sh s k) <> HasException e) /\ (forall i, ~ In (TReset i) os).
