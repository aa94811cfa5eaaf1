(** * Property C11, second part: no match calls the warped distance with a series of one point.

    [match_with cas] (ShortSpec.v) is getBestMatch with the distance [cas] in place of the cascade distance, and
    [agrees cas] says that [cas] does the same as the cascade distance on series of at least two points.  That all such
    [cas] give the same session and answer means that the distance is not called with a shorter series. *)
From Coq Require Import ZArith Bool Lia List Ascii String.
From Verif Require Import Outcome Num Distance TimeSeries Text Dataset Groups Api GroupSpec ShortSpec ShortProofs.
Import ListNotations.
Open Scope Z_scope.

(** In every reachable session, for every query and every result dataset whose series have at least two points. *)
Theorem C11_no_short_series : forall N IO writable (σ : st N) cas r q ix a e, reachable N IO writable σ -> agrees N cas ->
  (forall d, has_dataset N σ r d -> 2 <= set_len (ds_set N d)) ->
  match_with N cas σ r q ix a e = step N IO writable σ (OpMatch N r q ix a e).
Proof.
  intros N IO writable σ cas r q ix a e R A H. apply session_agree; auto; [eapply reach_sized; eauto|].
  intros d C. apply H. now apply SessionProofs.check_iff.
Qed.

(** Such a distance: undefined on shorter series. *)
Definition guarded : distance F64 := fun h ratio x y d =>
  if (ts_len x <? 2) || (ts_len y <? 2) then UB Uninit else cascade_ts F64 h ratio x y d.
Lemma guarded_agrees : agrees F64 guarded.
Proof. intros h ratio x y d Hx Hy. unfold guarded. destruct (Z.ltb_spec (ts_len x) 2); [lia|]. destruct (Z.ltb_spec (ts_len y) 2); [lia|]. reflexivity. Qed.

Definition sh_line (s : string) : text := T_ s ++ [nl].
Definition sh_files (p : string) : option text :=
  if String.eqb p "a" then Some (sh_line "0 1 2 3" ++ sh_line "3 1 4 1" ++ sh_line "2 2 5 6")
  else if String.eqb p "b" then Some (sh_line "1 2")
  else if String.eqb p "g" then Some (sh_line "1 0.5 3 4" ++ sh_line "2 5" ++ sh_line "euclidean" ++ sh_line "1" ++ sh_line "1 2" ++ sh_line "1 1 -3" ++
    sh_line "1" ++ sh_line "9 9 9" ++ sh_line "1 0 0" ++ sh_line "1" ++ sh_line "9 9 9 9" ++ sh_line "1 0 0")
  else None.
Definition sh_load : list (op F64) := [OpLoad F64 "a" 0 0 (T_ " "); OpLoad F64 "b" 0 0 (T_ " "); OpSetRatio F64 (f64_ofZ 1)].
Definition sh_run (ops : list (op F64)) (f : st F64 -> bool) : bool :=
  match run F64 F64_IO (fun _ => true) (st_init F64 sh_files) (sh_load ++ ops) with Some σ => f σ | None => false end.
Lemma sh_run_spec ops f : sh_run ops f = true -> exists σ, reachable F64 F64_IO (fun _ => true) σ /\ f σ = true.
Proof.
  unfold sh_run. destruct (run _ _ _ _ _) as [σ|] eqn:E; [|discriminate]. intros H. exists σ. split; auto. exists sh_files, (sh_load ++ ops). exact E.
Qed.
Definition done_b (r : res F64) : bool := match r with Done _ _ _ => true | _ => false end.
Definition bad_b (r : res F64) : bool := match r with Bad _ _ => true | _ => false end.
Definition len_b (σ : st F64) (i L : Z) : bool := match checkDatasetIndex F64 σ i with Ok d => set_len (ds_set F64 d) =? L | _ => false end.
Lemma len_b_spec σ i L : len_b σ i L = true -> exists d, has_dataset F64 σ i d /\ set_len (ds_set F64 d) = L.
Proof.
  unfold len_b. destruct (checkDatasetIndex F64 σ i) as [d| | |] eqn:E; try discriminate. intros H. exists d. split; [now apply SessionProofs.check_iff|now apply Z.eqb_eq].
Qed.

(** The hypotheses are met by a match that succeeds. *)
Example C11_no_short_case : exists σ, reachable F64 F64_IO (fun _ => true) σ /\ agrees F64 guarded /\
  (exists d, has_dataset F64 σ 0 d /\ set_len (ds_set F64 d) = 4) /\
  exists σ' v, step F64 F64_IO (fun _ => true) σ (OpMatch F64 0 1 0 (-1) (-1)) = Done F64 σ' v.
Proof.
  destruct (sh_run_spec [OpGroup F64 0 (f64_ofZ 1) (fun _ => false)] (fun σ => len_b σ 0 4 && done_b (step F64 F64_IO (fun _ => true) σ (OpMatch F64 0 1 0 (-1) (-1)))))
    as (σ & R & H); [vm_compute; reflexivity|]. apply andb_true_iff in H as (H1 & H2). exists σ. split; auto. split; [apply guarded_agrees|]. split; [now apply len_b_spec|].
  destruct (step F64 F64_IO (fun _ => true) σ (OpMatch F64 0 1 0 (-1) (-1))) as [σ' v| | |]; try discriminate H2. eauto.
Qed.

(** The condition on the result dataset is needed: after loading a group file with a negative start and reducing the
    series to one point, a match that succeeds does compare the query with a series of one point. *)
Theorem C11_reduced_witness : exists σ, reachable F64 F64_IO (fun _ => true) σ /\ agrees F64 guarded /\
  (exists d, has_dataset F64 σ 0 d /\ set_len (ds_set F64 d) = 1) /\
  (exists σ' v, step F64 F64_IO (fun _ => true) σ (OpMatch F64 0 1 0 (-1) (-1)) = Done F64 σ' v) /\
  exists u, match_with F64 guarded σ 0 1 0 (-1) (-1) = Bad F64 u.
Proof.
  destruct (sh_run_spec [OpLoadGroup F64 0 "g"; OpPAA F64 0 4] (fun σ => len_b σ 0 1 && (done_b (step F64 F64_IO (fun _ => true) σ (OpMatch F64 0 1 0 (-1) (-1))) &&
    bad_b (match_with F64 guarded σ 0 1 0 (-1) (-1)))))
    as (σ & R & H); [vm_compute; reflexivity|]. apply andb_true_iff in H as (H1 & H2). apply andb_true_iff in H2 as (H2 & H3).
  exists σ. split; auto. split; [apply guarded_agrees|]. split; [now apply len_b_spec|]. split.
  - destruct (step F64 F64_IO (fun _ => true) σ (OpMatch F64 0 1 0 (-1) (-1))) as [σ' v| | |]; try discriminate H2. eauto.
  - destruct (match_with F64 guarded σ 0 1 0 (-1) (-1)); try discriminate H3. eauto.
Qed.
