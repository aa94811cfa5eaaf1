(** * C33: reducing a grouped dataset (PAA) leaves groups in freed memory.
    Vocabulary: [grouped_earlier] (GroupSpec.v: grouped by an earlier operation, followed by any history that
    leaves dataset [i] alone), [quiet i] (an operation that does not load, unload, normalize, reduce, group or load
    groups for dataset [i]; matches against it are allowed), [query_is] (the values of a query). *)
From Coq Require Import ZArith Bool Reals Lra Lia SpecFloat String List.
From Verif Require Import Outcome Num Lemire Distance TimeSeries Text Dataset Groups Api Laws F64Base F64Laws Band Numeric.
From Verif Require Import TsProofs GroupSpec GroupProofs GlobalGroup MatchProofs SessionProofs SessionMatch TraverseProofs ApiProofs DangleProofs.
From Verif Require Import Properties_Groups Properties_Match Properties_Api Properties_Data.
Import ListNotations.
Open Scope Z_scope.

(** [σ2] is a session in which dataset [i] was grouped (with item length [top]), then reduced by [n], with any history
    afterwards that does not change it. *)
Definition reduced_after_grouping (IO : NumIO F64) writable (σ2 : st F64) (i n top : Z) : Prop :=
  exists σ0 thr t data σ1 v ops, grouped_earlier F64 IO writable σ0 i thr t data /\
    lt F64 (ndiv F64 thr (f64_ofZ 2)) (ninf F64) /\ set_len t = top /\ 1 <= set_count t /\
    step F64 IO writable σ0 (OpPAA F64 i n) = Done F64 σ1 v /\ Forall (quiet F64 i) ops /\ run F64 IO writable σ1 ops = Some σ2.

Lemma reduced_dangling IO writable σ2 i n top : reduced_after_grouping IO writable σ2 i n top -> top <= 2 ^ 26 ->
  wf F64 σ2 /\ dangling σ2 i top.
Proof.
  intros (σ0 & thr & t & data & σ1 & v & ops & G & Hinf & <- & Hc & E & Q & R) Ht.
  destruct (earlier_ready F64 IO writable fin64 pos64 σ0 i thr t data G ltac:(lia) Hinf) as (W & gmf & d & Rd & Et & _). subst t.
  assert (W1 : wf F64 σ1) by (eapply (step_wf F64 IO writable σ0 (OpPAA F64 i n)); auto; now rewrite E).
  destruct (run_dangling IO writable ops σ1 σ2 i (set_len (ds_set F64 d))) as (A & B & _); auto. eapply (PAA_dangling IO writable σ0 i d data gmf n); eauto.
Qed.

(** The dataset is still reported as grouped, and every match against it (with finite values and a ratio for which the
    band can be computed) is undefined behaviour, whatever happens in between. *)
Theorem C33_still_grouped : forall IO writable σ2 i n top, reduced_after_grouping IO writable σ2 i n top -> top <= 2 ^ 26 ->
  exists d, has_dataset F64 σ2 i d /\
    step F64 IO writable σ2 (OpInfo F64 i) = Done F64 σ2 (VInfo F64 (mkInfo i (set_path (ds_set F64 d)) (set_count (ds_set F64 d)) (set_len (ds_set F64 d)) true (set_norm (ds_set F64 d)))).
Proof.
  intros IO writable σ2 i n top H Ht. destruct (reduced_dangling _ _ _ _ _ _ H Ht) as (_ & d & gs & C & G & _).
  exists d. split; [now apply has_check|]. cbn [step]. unfold api_info, getDatasetInfo. rewrite C. cbn [lift bind]. unfold info_of, isGrouped. rewrite G. reflexivity.
Qed.
Theorem C33_match_undefined : forall IO writable σ2 i n top q ix a e qv, reduced_after_grouping IO writable σ2 i n top -> top <= 2 ^ 26 ->
  query_is F64 σ2 q ix a e qv -> Forall fin64 qv -> 2 <= zlen qv <= 2 ^ 26 -> ratio_ok64 (st_ratio F64 σ2) (Z.max (zlen qv) top) ->
  exists u, step F64 IO writable σ2 (OpMatch F64 i q ix a e) = Bad F64 u.
Proof.
  intros IO writable σ2 i n top q ix a e qv H Ht Q F Hq Hr. destruct (reduced_dangling _ _ _ _ _ _ H Ht) as (_ & D). cbn [step].
  eapply dangling_match; eauto; [|lia|].
  - eapply Forall_impl; [|exact F]. apply fin_ok.
  - intros k Hk. destruct (band_fun64 _ _ Hr ltac:(lia)) as (bw & (B & _)). exists (bw k). destruct (B k) as (B1 & B2); [exact Hk|]. split; [exact B1|lia].
Qed.
(** No match ever returns, whatever the query and the ratio. *)
Theorem C33_match_never_returns : forall IO writable σ2 i n top q ix a e σ3 v, reduced_after_grouping IO writable σ2 i n top -> top <= 2 ^ 26 ->
  step F64 IO writable σ2 (OpMatch F64 i q ix a e) <> Done F64 σ3 v.
Proof.
  intros IO writable σ2 i n top q ix a e σ3 v H Ht. destruct (reduced_dangling _ _ _ _ _ _ H Ht) as (_ & D). eapply match_dangling; eauto.
Qed.

(** Grouping again repairs it: in every later session that leaves the dataset alone a match returns a subsequence of
    the reduced data and its distance. *)
Theorem C33_regroup : forall IO writable σ2 i n top d data thr clock, reduced_after_grouping IO writable σ2 i n top -> top <= 2 ^ 26 ->
  dataset F64 σ2 i d data -> Forall small64 data -> 1 <= set_len (ds_set F64 d) <= 2 ^ 20 -> 5 <= set_count (ds_set F64 d) ->
  lt F64 (ndiv F64 thr (f64_ofZ 2)) (ninf F64) ->
  exists σ3 m, step F64 IO writable σ2 (OpGroup F64 i thr clock) = Done F64 σ3 (VInt F64 m) /\
    forall ops σ4 q ix a e qv, Forall (quiet F64 i) ops -> run F64 IO writable σ3 ops = Some σ4 ->
      query_is F64 σ4 q ix a e qv -> Forall small64 qv -> 2 <= zlen qv <= set_len (ds_set F64 d) ->
      ratio_ok64 (st_ratio F64 σ4) (set_len (ds_set F64 d)) ->
      exists σ5 c L p, step F64 IO writable σ4 (OpMatch F64 i q ix a e) = Done F64 σ5 (VCand F64 c) /\
        denotes F64 (st_heap F64 σ5) (ds_set F64 d) data c L p /\
        dtw_is F64 (st_ratio F64 σ4) qv (sub_values F64 data (set_len (ds_set F64 d)) L p) (cand_dist c).
Proof.
  intros IO writable σ2 i n top d data thr clock H Ht D Fd Hl Hc Hinf. destruct (reduced_dangling _ _ _ _ _ _ H Ht) as (W & _).
  destruct (C52_five_series_suffice σ2 i thr d data clock) as (σ3 & m & gs & E & G); auto; try lia. exists σ3, m. split; [exact E|].
  intros ops σ4 q ix a e qv Q R Qi Fq Hq Hr.
  destruct (C25_match_is_real IO writable σ4 i thr (ds_set F64 d) data q ix a e qv) as (σ5 & c & E5 & L & p & Dn & Dw & _).
  - split; [exists σ2, d, σ3, m, gs, ops; tauto|]. split; [exact Hinf|]. split; [exact Fd|]. split; [exact Fq|]. split; [lia|]. split; [lia|]. tauto.
  - exists σ5, c, L, p. auto.
Qed.

(** A run: five series of length 4, grouped, matched, reduced by 2, other operations; then a match. *)
Definition ex_dang_files (p : string) : option text :=
  Some (ex_line "1 2 3 4" ++ ex_line "5 6 1 1" ++ ex_line "9 7 2 2" ++ ex_line "1 2.5 3 8" ++ ex_line "0 0 0 1").
Definition ex_dang_ops : list (op F64) := [OpLoad F64 "a" 0 0 (T_ " "); OpGroup F64 0 (f64_ofZ 1) (fun _ => false); OpMatch F64 0 0 1 (-1) (-1)].
Definition ex_dang : option (st F64) :=
  match run F64 F64_IO (fun _ => true) (st_init F64 ex_dang_files) ex_dang_ops with
  | Some σ => run F64 F64_IO (fun _ => true) σ [OpPAA F64 0 2; OpLoad F64 "b" 3 0 (T_ " "); OpMatch F64 0 7 0 0 0] | None => None end.
Definition ex_dang_match (σ : st F64) (q ix a e : Z) : option ub :=
  match step F64 F64_IO (fun _ => true) σ (OpMatch F64 0 q ix a e) with Bad _ u => Some u | _ => None end.
Example C33_case : match ex_dang with
  | Some σ => match look σ 0, step F64 F64_IO (fun _ => true) σ (OpInfo F64 0) with
     | Some (d, l), Done _ _ (VInfo _ inf) => set_len (ds_set F64 d) = 2 /\ set_count (ds_set F64 d) = 5 /\ i_grouped inf = true /\
         ex_dang_match σ 0 1 (-1) (-1) = Some UseAfterFree /\ ex_dang_match σ 1 0 0 3 = Some UseAfterFree
     | _, _ => False end
  | None => False end.
Proof. vm_compute. auto. Qed.

(** The hypotheses are met: the session above. *)
Definition ex_dang_hyp : bool :=
  match run F64 F64_IO (fun _ => true) (st_init F64 ex_dang_files) [OpLoad F64 "a" 0 0 (T_ " ")] with
  | Some σ => match look σ 0 with
    | Some (d, l) => (set_len (ds_set F64 d) =? 4) && (set_count (ds_set F64 d) =? 5) &&
      match step F64 F64_IO (fun _ => true) σ (OpGroup F64 0 (f64_ofZ 1) (fun _ => false)) with
      | Done _ σ1 (VInt _ _) => match checkDatasetIndex F64 σ1 0 with
        | Ok d1 => match ds_groups F64 d1 with
          | Some _ => match run F64 F64_IO (fun _ => true) σ1 [OpMatch F64 0 0 1 (-1) (-1)] with
            | Some σ2 => match step F64 F64_IO (fun _ => true) σ2 (OpPAA F64 0 2) with
              | Done _ σ3 _ => match run F64 F64_IO (fun _ => true) σ3 [OpLoad F64 "b" 3 0 (T_ " "); OpMatch F64 0 7 0 0 0] with
                | Some σ4 => match look σ4 1 with Some (d4, l4) => (set_len (ds_set F64 d4) =? 4) && (set_count (ds_set F64 d4) =? 3) && forallb fin64b l4 && (zlen l4 =? 12)
                    && match st_ratio F64 σ4 with S754_finite false _ _ => true | _ => false end && nltb F64 (st_ratio F64 σ4) (f64_ofZ 1) && is_f64 (st_ratio F64 σ4) | None => false end
                | None => false end
              | _ => false end
            | None => false end
          | None => false end
        | _ => false end
      | _ => false end
    | None => false end
  | None => false end.
Example C33_hypotheses : exists σ2 qv, reduced_after_grouping F64_IO (fun _ => true) σ2 0 2 4 /\
  query_is F64 σ2 1 0 (-1) (-1) qv /\ Forall fin64 qv /\ zlen qv = 4 /\ ratio_ok64 (st_ratio F64 σ2) 4.
Proof.
  assert (H : ex_dang_hyp = true) by (vm_compute; reflexivity). unfold ex_dang_hyp in H.
  destruct (run _ _ _ (st_init F64 ex_dang_files) _) as [σ|] eqn:E0; [|discriminate]. destruct (look σ 0) as [[d l]|] eqn:L0; [|discriminate].
  apply andb_prop in H as (K & H). apply andb_prop in K as (K1 & K2).
  destruct (step F64 F64_IO _ σ _) as [σ1 v1| | |] eqn:E1; try discriminate. destruct v1 as [|m| | | |]; try discriminate.
  destruct (checkDatasetIndex F64 σ1 0) as [d1| | |] eqn:C1; try discriminate. destruct (ds_groups F64 d1) as [gs|] eqn:G1; [|discriminate].
  destruct (run F64 F64_IO _ σ1 _) as [σ2|] eqn:E2; [|discriminate]. destruct (step F64 F64_IO _ σ2 _) as [σ3 v3| | |] eqn:E3; try discriminate.
  destruct (run F64 F64_IO _ σ3 _) as [σ4|] eqn:E4; [|discriminate]. destruct (look σ4 1) as [[d4 l4]|] eqn:L4; [|discriminate].
  apply andb_prop in H as (H & K9). apply andb_prop in H as (H & K8). apply andb_prop in H as (H & K7). apply andb_prop in H as (H & K6).
  apply andb_prop in H as (H & K5). apply andb_prop in H as (K3 & K4).
  exists σ4, (zslice l4 0 4). apply look_spec in L0, L4. split; [|split; [|split; [|split]]].
  - exists σ2, (f64_ofZ 1), (ds_set F64 d), l, σ3, v3, [OpLoad F64 "b" 3 0 (T_ " "); OpMatch F64 0 7 0 0 0].
    split. { exists σ, d, σ1, m, gs, [OpMatch F64 0 0 1 (-1) (-1)]. split. { eapply C45_reachable. exists ex_dang_files. eexists. exact E0. }
      split; auto. split; auto. split; [exists (fun _ => false), d1; auto|]. split; [repeat constructor|exact E2]. }
    split; [vm_compute; reflexivity|]. split; [lia|]. split; [lia|]. split; [exact E3|]. split; [repeat constructor; cbn; lia|exact E4].
  - exists d4, l4. split; auto. cbn zeta. split; [lia|]. left. split; [lia|]. split; [lia|]. split; [lia|]. unfold sub_values. cbn [fst snd].
    replace (set_len (ds_set F64 d4)) with 4 by lia. reflexivity.
  - apply Forall_forall. intros x Hx. apply fin64b_spec. rewrite forallb_forall in K5. apply K5.
    now apply in_slice in Hx.
  - change (num F64) with spec_float in *. apply zslice_len; lia.
  - change (num F64) with spec_float in *. assert (F : fin64 (st_ratio F64 σ4)) by (split; [exact K9|destruct (st_ratio F64 σ4) as [| | |[] ? ?]; try discriminate; exact I]).
    split; auto. destruct (ofZ_exact 1) as (F1 & V1); [lia|]. apply ltb_true in K8; [|now apply fin_ok..]. rewrite V1 in K8.
    assert (P : (0 <= val (st_ratio F64 σ4))%R) by (apply (proj1 (ltb_false (st_ratio F64 σ4) (S754_zero false) (fin_ok _ F) (fin_ok _ (fin64b_spec (S754_zero false) eq_refl)))); destruct (st_ratio F64 σ4) as [| | |[] ? ?]; try discriminate; reflexivity).
    split; auto. unfold int_max. lra.
Qed.
