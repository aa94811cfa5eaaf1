(** * Property C31: cached envelopes.

    A series keeps the last envelope that it computed and its band.  [crun] (CacheSpec.v) is a history of envelope
    requests and additions on a list of series. *)
From Coq Require Import ZArith Bool Lia List Ascii String SpecFloat.
From Verif Require Import Outcome Num Lemire Distance TimeSeries Text Dataset Groups Api F64Base F64Laws Spec LemireProofs TsProofs GroupSpec SessionProofs CacheSpec CacheProofs.
Import ListNotations.
Open Scope Z_scope.

(** After any history on series that do not share memory, every series has values that an envelope request describes:
    entry [k] is the minimum and the maximum of the current values at most [band] positions away. *)
Theorem C31_coherent : forall (h h' : heap F64) (l l' : list (ts F64)) ops i t v band,
  all_apart F64 l -> (forall t, In t l -> ts_cache t = None) -> crun F64 (h, l) ops = Some (h', l') ->
  nth_error l' i = Some t -> ts_read F64 h' t = Ok v -> Forall ok64 v -> 1 <= zlen v -> 0 <= band ->
  exists t' lower upper, ts_envelope F64 h' t band = Ok (t', (lower, upper)) /\
    zlen lower = zlen v /\ zlen upper = zlen v /\
    forall k, 0 <= k < zlen v ->
      (exists x, zget lower k = Ok (Some x) /\ is_window_min F64 v (Z.max 0 (k - band)) (Z.min (zlen v - 1) (k + band)) x) /\
      (exists x, zget upper k = Ok (Some x) /\ is_window_max F64 v (Z.max 0 (k - band)) (Z.min (zlen v - 1) (k + band)) x).
Proof.
  intros h h' l l' ops i t v band A C R Hi Hr Hv Hl Hb.
  destruct (crun_coherent F64 ops (h, l) (h', l')) as (_ & K); auto.
  { split; auto. intros k u Hk. apply cache_None, C. eapply nth_error_In; eauto. }
  destruct (Post_inv _ _ (generateKeoghLU_spec F64 ok64 f64_ord v band Hv Hl Hb)) as ((lo & up) & E & H).
  destruct (envelope_eq F64 h' t band v (K i t Hi) Hr lo up E) as (t' & Et & _). exists t', lo, up. tauto.
Qed.

(** A copy is never stale, whatever the cache of the original holds. *)
Theorem C31_copy : forall (h : heap F64) (t : ts F64) v band, ts_read F64 h t = Ok v -> Forall ok64 v -> 1 <= zlen v -> 0 <= band ->
  ts_read F64 h (ts_copy t) = Ok v /\
  exists t' lower upper, ts_envelope F64 h (ts_copy t) band = Ok (t', (lower, upper)) /\
    zlen lower = zlen v /\ zlen upper = zlen v /\
    forall k, 0 <= k < zlen v ->
      (exists x, zget lower k = Ok (Some x) /\ is_window_min F64 v (Z.max 0 (k - band)) (Z.min (zlen v - 1) (k + band)) x) /\
      (exists x, zget upper k = Ok (Some x) /\ is_window_max F64 v (Z.max 0 (k - band)) (Z.min (zlen v - 1) (k + band)) x).
Proof.
  intros h t v band Hr Hv Hl Hb. assert (Hc : ts_read F64 h (ts_copy t) = Ok v) by exact Hr. split; [exact Hc|].
  destruct (C31_coherent h h [ts_copy t] [ts_copy t] [] 0 (ts_copy t) v band) as (t' & lo & up & H); eauto.
  - intros [|i] [|j] a b Hij Hi Hj; cbn in Hi, Hj; try congruence; [destruct j|destruct i|destruct i]; discriminate.
  - intros a [<-|[]]. reflexivity.
Qed.

(** ** Case: two series of one buffer and one of their own, with requests before and after additions. *)
Definition ch_heap : heap F64 := [Some (map f64_ofZ [1; 5; 2; 7; 3; 4])].
Definition ch_series : list (ts F64) := [@ts_view F64 0 0 0 0 3; @ts_view F64 0 3 1 0 3; @mkTS F64 (@Owned F64 (map f64_ofZ [1; 0; -9])) 0 0 3 3 None].
Definition ch_ops : list cop := [CEnv 0 1; CEnv 1 1; CPlus 0 2; CEnv 0 1; CPlus 1 0; CEnv 1 2; CPlus 1 1].
Definition ch_check : bool :=
  match crun F64 (ch_heap, ch_series) ch_ops with
  | Some (h', [t; u; w]) => match ts_read F64 h' t, ts_read F64 h' u with
                            | Ok a, Ok b => forallb (fun p => SFeqb (fst p) (snd p)) (combine (a ++ b) (map f64_ofZ [2; 5; -7; 18; 16; -6])) && is_f64 (nth 0 a S754_nan)
                            | _, _ => false
                            end
  | _ => false
  end.
Example C31_case : all_apart F64 ch_series /\ (forall t, In t ch_series -> ts_cache t = None) /\
  exists h' l', crun F64 (ch_heap, ch_series) ch_ops = Some (h', l') /\ ch_check = true.
Proof.
  split; [|split].
  - intros i j t u Hij Hi Hj. destruct i as [|[|[|i]]], j as [|[|[|j]]]; cbn in Hi, Hj; try congruence; try (destruct i; discriminate Hi); try (destruct j; discriminate Hj);
      injection Hi as <-; injection Hj as <-; unfold apart; cbn; auto; right; lia.
  - intros t [<-|[<-|[<-|[]]]]; reflexivity.
  - assert (H : ch_check = true) by (vm_compute; reflexivity). revert H. unfold ch_check. destruct (crun F64 (ch_heap, ch_series) ch_ops) as [(h' & l')|]; [|discriminate].
    intros H. exists h', l'. split; auto.
Qed.

(** ** Stale envelopes. *)
(** The envelope that the series answers is not the one of its values. *)
Definition stale (h : heap F64) (t : ts F64) (band : Z) : Prop :=
  exists t' lower upper v lower' upper', ts_envelope F64 h t band = Ok (t', (lower, upper)) /\ ts_read F64 h t = Ok v /\
    generateKeoghLU F64 v band = Ok (lower', upper') /\ (lower, upper) <> (lower', upper').
Definition st_ts (l : list Z) : ts F64 := @mkTS F64 (@Owned F64 (map f64_ofZ l)) 0 0 (zlen l) (zlen l) None.
Definition first_ne (a b : uarray F64) : bool :=
  match a, b with Some x :: _, Some y :: _ => negb (SFeqb x y) | _, _ => false end.
Definition stale_b (h : heap F64) (t : ts F64) (band : Z) : bool :=
  match ts_envelope F64 h t band with
  | Ok (t', (lower, upper)) =>
      match ts_read F64 h t with
      | Ok v => match generateKeoghLU F64 v band with Ok (lower', upper') => first_ne lower lower' && negb (first_ne lower lower) | _ => false end
      | _ => false
      end
  | _ => false
  end.
Lemma stale_b_spec h t band : stale_b h t band = true -> stale h t band.
Proof.
  unfold stale_b, stale. destruct (ts_envelope F64 h t band) as [(t' & (lo & up))| | |]; try discriminate. destruct (ts_read F64 h t) as [v| | |]; try discriminate.
  destruct (generateKeoghLU F64 v band) as [(lo' & up')| | |] eqn:Eg; try discriminate. intros H. exists t', lo, up, v, lo', up'. do 2 (split; [reflexivity|]). split; [exact Eg|].
  intros E. injection E as -> ->. destruct (first_ne lo' lo'); discriminate H.
Qed.
(** Ask [t] for its envelope with band 1 and check the result. *)
Definition after_env (h : heap F64) (t : ts F64) (f : ts F64 -> bool) : bool :=
  match ts_envelope F64 h t 1 with Ok (t', _) => f t' | _ => false end.
Lemma after_env_spec h t f : after_env h t f = true -> exists t' r, ts_envelope F64 h t 1 = Ok (t', r) /\ f t' = true.
Proof. unfold after_env. destruct (ts_envelope F64 h t 1) as [(t' & r)| | |]; try discriminate. eauto. Qed.

(** After assignment: [t] is [t0] after a request. *)
Theorem C31_assign_witness : exists (t0 t u : ts F64) r, ts_cache t0 = None /\ ts_cache u = None /\ ts_envelope F64 [] t0 1 = Ok (t, r) /\
  stale [] (ts_assign t u) 1.
Proof.
  destruct (after_env_spec [] (st_ts [1; 2; 3]) (fun t => stale_b [] (ts_assign t (st_ts [7; 8; 9])) 1)) as (t & r & E & H); [vm_compute; reflexivity|].
  exists (st_ts [1; 2; 3]), t, (st_ts [7; 8; 9]), r. do 2 (split; [reflexivity|]). split; [exact E|]. now apply stale_b_spec.
Qed.
(** Assigning a longer series makes the answer shorter than the series. *)
Definition short_b (t : ts F64) : bool := match ts_envelope F64 [] t 1 with Ok (_, (lower, _)) => zlen lower <? ts_len t | _ => false end.
Theorem C31_assign_longer_witness : exists (t0 t u : ts F64) r, ts_cache t0 = None /\ ts_cache u = None /\ ts_envelope F64 [] t0 1 = Ok (t, r) /\
  exists t' lower upper, ts_envelope F64 [] (ts_assign t u) 1 = Ok (t', (lower, upper)) /\ zlen lower < ts_len (ts_assign t u).
Proof.
  destruct (after_env_spec [] (st_ts [1; 2; 3]) (fun t => short_b (ts_assign t (st_ts [7; 8; 9; 10])))) as (t & r & E & H); [vm_compute; reflexivity|].
  exists (st_ts [1; 2; 3]), t, (st_ts [7; 8; 9; 10]), r. do 2 (split; [reflexivity|]). split; [exact E|].
  unfold short_b in H. destruct (ts_envelope F64 [] (ts_assign t (st_ts [7; 8; 9; 10])) 1) as [(t' & (lo & up))| | |]; try discriminate H.
  exists t', lo, up. split; [reflexivity|]. now apply Z.ltb_lt.
Qed.
(** After a write through operator[]. *)
Theorem C31_write_witness : exists (t t1 t2 : ts F64) r h, ts_cache t = None /\ ts_envelope F64 [] t 1 = Ok (t1, r) /\
  ts_set F64 [] t1 0 (f64_ofZ 9) = Ok (h, t2) /\ stale h t2 1.
Proof.
  destruct (after_env_spec [] (st_ts [1; 2; 3]) (fun t => match ts_set F64 [] t 0 (f64_ofZ 9) with Ok (h, t2) => stale_b h t2 1 | _ => false end)) as (t1 & r & E & H); [vm_compute; reflexivity|].
  destruct (ts_set F64 [] t1 0 (f64_ofZ 9)) as [(h & t2)| | |] eqn:Es; try discriminate H.
  exists (st_ts [1; 2; 3]), t1, t2, r, h. split; [reflexivity|]. split; [exact E|]. split; [exact Es|]. now apply stale_b_spec.
Qed.
(** After an addition through another series on the same memory: the condition of [C31_coherent] is needed. *)
Theorem C31_shared_witness : exists h (t u : ts F64) h' t' u', ts_cache t = None /\ ts_cache u = None /\ ~ apart F64 t u /\
  crun F64 (h, [t; u]) [CEnv 0 1; CPlus 1 1] = Some (h', [t'; u']) /\ stale h' t' 1.
Proof.
  set (t := @ts_view F64 0 0 0 1 4). set (u := @ts_view F64 0 0 0 0 3).
  assert (H : match crun F64 (ch_heap, [t; u]) [CEnv 0 1; CPlus 1 1] with Some (h', [t'; _]) => stale_b h' t' 1 | _ => false end = true) by (vm_compute; reflexivity).
  destruct (crun F64 (ch_heap, [t; u]) [CEnv 0 1; CPlus 1 1]) as [(h' & [|t' [|u' [|]]])|] eqn:E; try discriminate H.
  exists ch_heap, t, u, h', t', u'. do 2 (split; [reflexivity|]).
  split; [unfold apart; cbn; lia|]. split; [exact E|]. now apply stale_b_spec.
Qed.

(** Normalizing a dataset after a match: the next match gives a worse answer than without the first match. *)
Definition nm_line (s : string) : text := T_ s ++ [nl].
Definition nm_files (p : string) : option text :=
  if String.eqb p "a" then Some (nm_line "0 0" ++ nm_line "100 100" ++ nm_line "0 0" ++ nm_line "0 0" ++ nm_line "0 0")
  else if String.eqb p "b" then Some (nm_line "1 1") else None.
Definition nm_load : list (op F64) := [OpLoad F64 "a" 0 0 (T_ " "); OpLoad F64 "b" 0 0 (T_ " "); OpGroup F64 0 (f64_ofZ 1) (fun _ => false)].
Definition nm_match : op F64 := OpMatch F64 0 1 0 (-1) (-1).
Definition nm_index (ops : list (op F64)) : option (Z * spec_float) :=
  match run F64 F64_IO (fun _ => true) (st_init F64 nm_files) ops with
  | Some σ => match step F64 F64_IO (fun _ => true) σ nm_match with Done _ _ (VCand _ c) => Some (ts_index (cand_data c), cand_dist c) | _ => None end
  | None => None
  end.
Theorem C31_normalize_witness : exists files load i j σ σ' s s' c c',
  run F64 F64_IO (fun _ => true) (st_init F64 files) (load ++ [OpNormalize F64 i]) = Some σ /\
  run F64 F64_IO (fun _ => true) (st_init F64 files) (load ++ [OpMatch F64 i j 0 (-1) (-1); OpNormalize F64 i]) = Some σ' /\
  step F64 F64_IO (fun _ => true) σ (OpMatch F64 i j 0 (-1) (-1)) = Done F64 s (VCand F64 c) /\
  step F64 F64_IO (fun _ => true) σ' (OpMatch F64 i j 0 (-1) (-1)) = Done F64 s' (VCand F64 c') /\
  cand_dist c = f64_ofZ 0 /\ nltb F64 (cand_dist c) (cand_dist c') = true /\ ts_index (cand_data c) <> ts_index (cand_data c').
Proof.
  exists nm_files, nm_load, 0, 1.
  assert (H1 : nm_index (nm_load ++ [OpNormalize F64 0]) = Some (1, f64_ofZ 0)) by (vm_compute; reflexivity).
  assert (H2 : match nm_index (nm_load ++ [nm_match; OpNormalize F64 0]) with Some (i, x) => (i =? 4) && SFltb (f64_ofZ 0) x | None => false end = true) by (vm_compute; reflexivity).
  unfold nm_index, nm_match in *.
  destruct (run F64 F64_IO (fun _ => true) (st_init F64 nm_files) (nm_load ++ [OpNormalize F64 0])) as [σ|]; [|discriminate H1].
  destruct (run F64 F64_IO (fun _ => true) (st_init F64 nm_files) (nm_load ++ [OpMatch F64 0 1 0 (-1) (-1); OpNormalize F64 0])) as [σ'|]; [|discriminate H2].
  exists σ, σ'.
  destruct (step F64 F64_IO (fun _ => true) σ (OpMatch F64 0 1 0 (-1) (-1))) as [s [| | | | |c]| | |]; try discriminate H1.
  destruct (step F64 F64_IO (fun _ => true) σ' (OpMatch F64 0 1 0 (-1) (-1))) as [s' [| | | | |c']| | |]; try discriminate H2.
  exists s, s', c, c'. do 4 (split; [reflexivity|]).
  assert (A : ts_index (cand_data c) = 1) by congruence. assert (B : cand_dist c = f64_ofZ 0) by congruence. apply andb_true_iff in H2 as (C & D). apply Z.eqb_eq in C.
  split; [exact B|]. rewrite A, C, B. split; [exact D|discriminate].
Qed.
