(** * C62: how long the answer of a match can be read, and which arrays are allocated.

    The answer of a match holds a pointer into the values of the dataset that was searched.  [frees], [freed_in] and [allocated] are in
    LifeSpec.v, [has_dataset] and [reachable] in GroupSpec.v.  Stated for any arithmetic, so in particular for doubles. *)
From Coq Require Import ZArith Bool Lia SpecFloat String List Ascii.
From Verif Require Import Outcome Num Distance TimeSeries Text Dataset Groups Api F64Base.
From Verif Require Import TsProofs GroupSpec GroupProofs GlobalGroup MatchProofs SessionProofs SessionMatch ApiProofs LifeSpec LifeProofs.
From Verif Require Import Properties_Groups Properties_Match Properties_Indep Properties_Api.
Import ListNotations.
Open Scope Z_scope.

Section Life.
Context (N : NumOps) (IO : NumIO N) (writable : string -> bool).
Local Notation st := (st N).
Local Notation step := (step N IO writable).
Local Notation run := (run N IO writable).
Local Notation reach := (reachable N IO writable).

Lemma step_reach σ o σ' : reach σ -> after N (step σ o) = Some σ' -> reach σ'.
Proof.
  intros (files & ops & E) A. exists files, (ops ++ [o]). rewrite run_app, E. cbn [Api.run]. now rewrite A.
Qed.
Lemma reach_null σ : reach σ -> null_empty N σ.
Proof. intros (files & ops & E). eapply (run_inv N IO writable (null_empty N)); eauto; [intros; eapply step_null; eauto|apply init_null]. Qed.
Lemma reach_accounted σ : reach σ -> accounted N σ.
Proof.
  intros (files & ops & E). eapply (run_inv N IO writable (accounted N)); eauto; [|apply init_accounted].
  intros s o s' H A. exact (effect_accounted N _ _ _ (step_effect N IO writable _ _ _ A) H).
Qed.
Lemma answer_buf σ r q ix a e σ1 c : reach σ -> step σ (OpMatch N r q ix a e) = Done N σ1 (VCand N c) -> reach σ1 /\
  exists d j x y, checkDatasetIndex N σ1 r = Ok d /\ getTimeSeries N (ds_set N d) j x y = Ok (cand_data c) /\
    exists b base, set_buf (ds_set N d) = Some b /\ ts_src (cand_data c) = View b base.
Proof.
  intros R E. assert (R1 : reach σ1) by (eapply step_reach; eauto; now rewrite E). split; auto.
  destruct (match_answer N IO writable _ _ _ _ _ _ _ _ E) as (d & j & x & y & C & Et & _). exists d, j, x, y. split; auto. split; auto.
  pose proof (reach_null σ1 R1 r d C) as Hn.
  unfold getTimeSeries in Et. destruct (Z.ltb_spec j 0); [discriminate|]. destruct (Z.leb_spec (set_count (ds_set N d)) j); [discriminate|]. cbn [orb] in Et.
  destruct (set_buf (ds_set N d)) as [b|]; [|specialize (Hn eq_refl); lia].
  destruct (_ && _); [|destruct (_ || _); [discriminate|]]; injection Et as <-; cbn [ts_src]; eauto.
Qed.

(** An answer is the very series that the searched dataset gives for some index and positions, and it stays so through every later history in
    which the dataset is not unloaded and not reduced, whatever else is called; if it is not normalized either, it keeps its values. *)
Theorem C62_answer_stays : forall σ r q ix a e σ1 c ops σ2, reach σ ->
  step σ (OpMatch N r q ix a e) = Done N σ1 (VCand N c) -> run σ1 ops = Some σ2 -> ~ freed_in N IO writable r σ1 ops ->
  (exists d1 d2 j x y, has_dataset N σ1 r d1 /\ getTimeSeries N (ds_set N d1) j x y = Ok (cand_data c) /\
     has_dataset N σ2 r d2 /\ getTimeSeries N (ds_set N d2) j x y = Ok (cand_data c)) /\
  (~ In (OpNormalize N r) ops -> ts_read N (st_heap N σ2) (cand_data c) = ts_read N (st_heap N σ1) (cand_data c)).
Proof.
  intros σ r q ix a e σ1 c ops σ2 R E Er Nf. destruct (answer_buf _ _ _ _ _ _ _ _ R E) as (R1 & d & j & x & y & C & Et & b & base & B & Es).
  pose proof (C45_reachable N IO writable _ R1) as W.
  destruct (run_life N IO writable ops σ1 σ2 r d b W Er C B) as (_ & H). destruct (H Nf) as (d2 & C2 & Sh & Hv). split.
  - exists d, d2, j, x, y. split; [now apply has_check|]. split; auto. split; [now apply has_check|]. now rewrite (same_shape_get N _ _ _ _ _ Sh).
  - intros Hn. unfold ts_read. rewrite Es. now rewrite (Hv Hn).
Qed.

(** After the dataset was unloaded or reduced, reading the answer is a use of freed memory, for ever: also after new datasets were loaded,
    under whatever identifier. *)
Theorem C62_answer_dangles : forall σ r q ix a e σ1 c ops σ2, reach σ ->
  step σ (OpMatch N r q ix a e) = Done N σ1 (VCand N c) -> run σ1 ops = Some σ2 -> freed_in N IO writable r σ1 ops ->
  ts_read N (st_heap N σ2) (cand_data c) = UB UseAfterFree.
Proof.
  intros σ r q ix a e σ1 c ops σ2 R E Er Fr. destruct (answer_buf _ _ _ _ _ _ _ _ R E) as (R1 & d & j & x & y & C & Et & b & base & B & Es).
  pose proof (C45_reachable N IO writable _ R1) as W.
  destruct (run_life N IO writable ops σ1 σ2 r d b W Er C B) as (H & _). unfold ts_read. rewrite Es. unfold heap_get. now rewrite (H Fr).
Qed.

(** In every reachable session the allocated arrays are those of the loaded datasets, each dataset having its own.  So nothing that was
    loaded stays allocated after its dataset is gone. *)
Theorem C62_arrays : forall σ, reach σ ->
  (forall b, allocated N σ b <-> exists i d, has_dataset N σ i d /\ set_buf (ds_set N d) = Some b) /\
  forall i j d d' b, has_dataset N σ i d -> has_dataset N σ j d' -> set_buf (ds_set N d) = Some b -> set_buf (ds_set N d') = Some b -> i = j.
Proof.
  intros σ R. destruct (C45_reachable N IO writable _ R) as (W1 & W2). split.
  - intros b. split.
    + intros (l & H). destruct (reach_accounted σ R b l H) as (i & d & C & B). exists i, d. split; auto. now apply has_check.
    + intros (i & d & C & B). apply has_check in C. exact (W1 i d C b B).
  - intros i j d d' b C C' B B'. apply has_check in C, C'. exact (W2 i j d d' b C C' B B').
Qed.
Theorem C62_all_freed : forall σ, reach σ -> exists σ', step σ (OpUnloadAll N) = Done N σ' (VUnit N) /\ forall b, ~ allocated N σ' b.
Proof.
  intros σ R. eexists. split; [reflexivity|]. intros b. rewrite (proj1 (C62_arrays _ (step_reach _ (OpUnloadAll N) _ R eq_refl)) b).
  intros (i & d & (_ & C) & _). cbn in C. destruct (Z.to_nat i); discriminate.
Qed.
End Life.

(** ** A session: two datasets are loaded, the first is grouped and searched.  The answer is read again after other calls, after the dataset was
    normalized, and after it was reduced. *)
Definition life_files : string -> option text := fun p => if String.eqb p "a" then Some (list_ascii_of_string "1 2 4
2 1 0
0 3 3
") else None.
Definition life_before : list (op F64) :=
  [ OpLoad F64 "a" 0 0 [" "%char]; OpLoad F64 "a" 0 0 [" "%char]; OpGroup F64 0 (f64_ofZ 1) (fun _ => false) ].
Definition life_match : op F64 := OpMatch F64 0 1 1 0 2.
Definition life_other : list (op F64) :=
  [ OpNormalize F64 1; OpPAA F64 1 2; OpGroup F64 0 (f64_ofZ 2) (fun _ => false); OpMatch F64 0 0 0 (-1) (-1); OpSave F64 0 "b" " "%char; OpUnload F64 1; OpLoad F64 "a" 1 0 [" "%char] ].
(** The values of the answer after [later], as integers; [None] if they cannot be read. *)
Definition answer_after (later : list (op F64)) : option (list spec_float) :=
  let w := fun p => negb (String.eqb p "a") in
  match run F64 F64_IO w (st_init F64 life_files) life_before with
  | Some σ => match step F64 F64_IO w σ life_match with
    | Done _ σ1 (VCand _ c) => match run F64 F64_IO w σ1 later with
      | Some σ2 => match ts_read F64 (st_heap F64 σ2) (cand_data c) with Ok v => Some v | _ => None end
      | None => None end
    | _ => None end
  | None => None end.
Definition same_numbers (o : option (list spec_float)) (v : list Z) : bool :=
  match o with Some l => (zlen l =? zlen v) && forallb (fun p => SFeqb (fst p) (snd p)) (combine l (map f64_ofZ v)) | None => false end.
Example C62_answers : same_numbers (answer_after []) [2; 1] = true /\ same_numbers (answer_after life_other) [2; 1] = true /\
  (exists v, answer_after (life_other ++ [OpNormalize F64 0]) = Some v) /\ same_numbers (answer_after (life_other ++ [OpNormalize F64 0])) [2; 1] = false /\
  answer_after (life_other ++ [OpPAA F64 0 1]) = None /\ answer_after (life_other ++ [OpUnload F64 0; OpLoad F64 "a" 0 0 [" "%char]]) = None.
Proof. split; [|split; [|split; [eexists|split; [|split]]]]; vm_compute; reflexivity. Qed.
Lemma run_one N IO w (s : st N) o s' : run N IO w s [o] = Some s' -> (exists v, step N IO w s o = Done N s' v) \/ exists e, step N IO w s o = Exn N s' e.
Proof. cbn [run]. destruct (step N IO w s o); cbn [after]; try discriminate; injection 1 as ->; eauto. Qed.
(** The hypotheses of the theorems hold there. *)
Example C62_case : exists σ σ1 c σ2 σ3, let w := fun p => negb (String.eqb p "a") in
  reachable F64 F64_IO w σ /\ step F64 F64_IO w σ life_match = Done F64 σ1 (VCand F64 c) /\
  run F64 F64_IO w σ1 life_other = Some σ2 /\ ~ freed_in F64 F64_IO w 0 σ1 life_other /\ ~ In (OpNormalize F64 0) life_other /\
  run F64 F64_IO w σ1 (life_other ++ [OpPAA F64 0 1]) = Some σ3 /\ freed_in F64 F64_IO w 0 σ1 (life_other ++ [OpPAA F64 0 1]).
Proof.
  set (w := fun p => negb (String.eqb p "a")).
  assert (H : answer_after life_other <> None).
  { assert (X : match answer_after life_other with Some _ => true | None => false end = true) by (vm_compute; reflexivity).
    destruct (answer_after life_other); discriminate. }
  assert (H3 : match run F64 F64_IO w (st_init F64 life_files) (life_before ++ life_match :: life_other ++ [OpPAA F64 0 1]) with Some _ => true | None => false end = true)
    by (vm_compute; reflexivity).
  unfold answer_after in H. cbv zeta in H. fold w in H. rewrite run_app in H3.
  destruct (run F64 F64_IO w (st_init F64 life_files) life_before) as [σ|] eqn:E0; [|exfalso; exact (H eq_refl)].
  destruct (step F64 F64_IO w σ life_match) as [σ1 v|s e|u|] eqn:E1; [|exfalso; exact (H eq_refl)..].
  destruct v as [| | | | |c]; [exfalso; exact (H eq_refl)..|].
  destruct (run F64 F64_IO w σ1 life_other) as [σ2|] eqn:E2; [|exfalso; exact (H eq_refl)].
  cbn [run] in H3. rewrite E1 in H3. cbn [after] in H3. rewrite run_app, E2 in H3.
  destruct (run F64 F64_IO w σ2 [OpPAA F64 0 1]) as [σ3|] eqn:E3; [|discriminate]. exists σ, σ1, c, σ2, σ3. cbv zeta. fold w.
  split; [exists life_files, life_before; exact E0|]. split; auto. split; auto. split; [|split; [|split]].
  - intros (pre & o & post & s & s' & v & X & _ & Fr & _).
    assert (Ho : In o life_other) by (rewrite X; apply in_elt). clear - Ho Fr. unfold life_other in Ho.
    destruct Fr as [->|[->|(n & ->)]]; repeat (destruct Ho as [Ho|Ho]; [discriminate Ho|]); destruct Ho.
  - intros Ho. unfold life_other in Ho. repeat (destruct Ho as [Ho|Ho]; [discriminate Ho|]). destruct Ho.
  - rewrite run_app, E2. exact E3.
  - apply run_one in E3 as [(v & E4)|(e & E4)].
    + exists life_other, (OpPAA F64 0 1), [], σ2, σ3, v. split; [reflexivity|]. split; [exact E2|]. split; [|exact E4]. right. right. eauto.
    + exfalso. assert (Y : answer_after (life_other ++ [OpPAA F64 0 1]) = None) by (vm_compute; reflexivity).
      assert (Z0 : σ3 = σ2) by (apply step_exn in E4 as [->|[(? & ? & X)|((? & ? & ? & X) & _)]]; [reflexivity|discriminate X|discriminate X]).
      unfold answer_after in Y. cbv zeta in Y. fold w in Y. rewrite E0, E1, run_app, E2 in Y. cbn [run] in Y. rewrite E4 in Y. cbn [after] in Y. subst σ3.
      destruct (ts_read F64 (st_heap F64 σ2) (cand_data c)); [discriminate Y|exact (H eq_refl)..].
Qed.
