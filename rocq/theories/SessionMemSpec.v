(** * Specification of the memory of sessions.

    [reach]: the blocks that the program can still release, following the pointers from the table of datasets.
    [driven]: a history of API calls (Api.v) with the allocations and releases that belong to it (SessionMem.v).
    [mirrors]: the objects in memory are the datasets, group spaces and groups of the session. *)
From Coq Require Import ZArith String List.
From Verif Require Import Outcome Num TimeSeries Text Dataset.
From Verif Require SessionMem.
From Verif Require Import Groups Api.
Import SessionMem (mem, cell, CArr, CSet, CGlobal, CLocal, CGroup, series, s_data, s_owner, s_lower, s_upper, mst, m_mem, m_sets,
  mop, MLoad, MUnload, MUnloadAll, MGroup, MLoadGroup, MMatch, MPAA, MIdle).
Import ListNotations.
Open Scope Z_scope.

(** Block [p] is allocated and holds [c]. *)
Definition live_at (m : mem) (p : nat) (c : cell) : Prop := nth_error m p = Some (Some c).
Definition pointer (o : option nat) : list nat := match o with Some p => [p] | None => [] end.
(** The blocks that an object is responsible for. *)
Definition owned (c : cell) : list nat :=
  match c with
  | CArr => []
  | CSet d g => pointer d ++ pointer g
  | CGlobal l => flat_map pointer l
  | CLocal l => l
  | CGroup s => (if s_owner s then pointer (s_data s) else []) ++ pointer (s_lower s) ++ pointer (s_upper s)
  end.
Inductive reach (s : mst) : nat -> Prop :=
| ReachTable p : In (Some p) (m_sets s) -> reach s p
| ReachOwned p c q : reach s p -> live_at (m_mem s) p c -> In q (owned c) -> reach s q.

Section Spec.
Context (N : NumOps) (IO : NumIO N) (writable : string -> bool).
Local Notation step := (step N IO writable).
Local Notation check := (checkDatasetIndex N).

(** The number of groups of each length; [None] where there is no space. *)
Definition spaces_of (gs : gspace N) : list (option nat) := map (option_map (fun ls => List.length (ls_groups N ls))) (gs_spaces N gs).
(** The groups of dataset [i] after a call. *)
Definition spaces_after (r : res N) (i : Z) (sp : list (option nat)) : Prop :=
  exists σ d gs, after N r = Some σ /\ check σ i = Ok d /\ ds_groups N d = Some gs /\ sp = spaces_of gs.
Definition group_exists (gs : gspace N) (x : nat * nat) : Prop :=
  exists ls, nth_error (gs_spaces N gs) (fst x) = Some (Some ls) /\ (snd x < List.length (ls_groups N ls))%nat.

(** What call [o] does in memory.  For a match, which envelopes are computed does not matter (any groups of the dataset). *)
Definition drives (σ : st N) (o : op N) (a : mop) : Prop :=
  match o with
  | OpLoad _ _ _ _ _ => match step σ o with
      | Done _ σ' (VInfo _ v) => exists d, check σ' (i_id v) = Ok d /\ a = MLoad (isLoaded (ds_set N d)) false
      | _ => exists rows, a = MLoad rows true
      end
  | OpUnload _ i => a = match step σ o with Done _ _ _ => MUnload (Z.to_nat i) | _ => MIdle end
  | OpUnloadAll _ => a = MUnloadAll
  | OpGroup _ i _ _ => match check σ i with
      | Ok d => if isLoaded (ds_set N d) then exists sp, spaces_after (step σ o) i sp /\ a = MGroup (Z.to_nat i) sp else a = MIdle
      | _ => a = MIdle
      end
  | OpLoadGroup _ i p => match check σ i, st_files N σ p with
      | Ok d, Some t => match load_header N IO (ds_set N d) (mkIS t false) with
          | Ok _ => exists sp, spaces_after (step σ o) i sp /\ a = MLoadGroup (Z.to_nat i) sp
          | _ => a = MIdle
          end
      | _, _ => a = MIdle
      end
  | OpMatch _ i _ _ _ _ => match check σ i with
      | Ok d => match ds_groups N d with
          | Some gs => exists env, Forall (group_exists gs) env /\ a = MMatch (Z.to_nat i) env
          | None => a = MIdle
          end
      | _ => a = MIdle
      end
  | OpPAA _ i _ => a = match step σ o with Done _ _ _ => MPAA (Z.to_nat i) | _ => MIdle end
  | _ => a = MIdle
  end.

(** The number that groupDataset and loadGroup return. *)
Definition counted (o : op N) (r : res N) : Z :=
  match o, r with
  | OpGroup _ _ _ _, Done _ _ (VInt _ n) => n
  | OpLoadGroup _ _ _, Done _ _ (VInt _ n) => n
  | _, _ => 0
  end.
(** [driven σ ops σ' acts n]: the history [ops] leads from [σ] to [σ'] with the memory actions [acts]; the numbers of groups returned
    add up to [n]. *)
Inductive driven : st N -> list (op N) -> st N -> list mop -> Z -> Prop :=
| DNil σ : driven σ [] σ [] 0
| DCons σ o σ1 ops σ2 a acts n : after N (step σ o) = Some σ1 -> drives σ o a -> driven σ1 ops σ2 acts n ->
    driven σ (o :: ops) σ2 (a :: acts) (counted o (step σ o) + n).

(** The objects in memory. *)
Definition group_object (m : mem) (p : nat) : Prop := exists c, live_at m p (CGroup c).
Definition space_object (m : mem) (o : option nat) (ls : option (lspace N)) : Prop :=
  match o, ls with
  | None, None => True
  | Some p, Some ls => exists l, live_at m p (CLocal l) /\ List.length l = List.length (ls_groups N ls) /\ NoDup l /\ Forall (group_object m) l
  | _, _ => False
  end.
Definition set_object (m : mem) (o : option nat) (d : option (dset N)) : Prop :=
  match o, d with
  | None, None => True
  | Some p, Some d => exists a g, live_at m p (CSet a g) /\
      match a, set_buf (ds_set N d) with Some a, Some _ => live_at m a CArr | None, None => True | _, _ => False end /\
      match g, ds_groups N d with
      | Some g, Some gs => exists l, live_at m g (CGlobal l) /\ Forall2 (space_object m) l (gs_spaces N gs)
      | None, None => True
      | _, _ => False
      end
  | _, _ => False
  end.
Definition mirrors (s : mst) (σ : st N) : Prop := Forall2 (set_object (m_mem s)) (m_sets s) (st_sets N σ).
End Spec.
