(** * Facts about PAA and normalization. *)
From Coq Require Import ZArith Bool Lia String List.
From Verif Require Import Outcome Num Lemire Distance TimeSeries Text Dataset Groups Api.
From Verif Require Import TsProofs GroupSpec GroupProofs SessionProofs.
Import ListNotations.
Open Scope Z_scope.

Lemma zslice_snoc {A} (l : list A) s k x : 0 <= s -> 0 <= k -> zget l (s + k) = Ok x ->
  zslice l s (k + 1) = zslice l s k ++ [x].
Proof.
  intros Hs Hk H. apply zget_inv in H as (Hr & H). unfold zslice.
  replace (Z.to_nat (k + 1)) with (S (Z.to_nat k)) by lia.
  assert (E : nth_error (skipn (Z.to_nat s) l) (Z.to_nat k) = Some x).
  { rewrite <- H. replace (Z.to_nat (s + k)) with (Z.to_nat s + Z.to_nat k)%nat by lia.
    generalize (Z.to_nat s) (Z.to_nat k). clear. intros a b. revert l. induction a as [|a IH]; intros l; cbn; auto.
    destruct l; cbn; auto. now destruct b. }
  revert E. generalize (skipn (Z.to_nat s) l) (Z.to_nat k). clear. intros l k. revert l.
  induction k as [|k IH]; intros [|y l] E; cbn in *; try discriminate; [congruence|]. f_equal. now apply IH.
Qed.
Lemma zslice_0 {A} (l : list A) s : zslice l s 0 = [].
Proof. reflexivity. Qed.

Section DataProofs.
Context (N : NumOps).
Local Notation T := (num N).

Local Notation mean := (mean N).
Definition block (data : list T) (off len n k : Z) : list T := zslice data (off + k * n) (Z.min n (len - k * n)).

Lemma paa_len len n : 1 <= len -> 1 <= n -> calcPAALength len n = (len + n - 1) / n.
Proof.
  intros. unfold calcPAALength. rewrite Z.quot_div_nonneg by lia. replace (len + n - 1) with (len - 1 + 1 * n) by lia.
  now rewrite Z.div_add by lia.
Qed.

Lemma doPAA_spec source soff len n dest doff : 1 <= len -> 1 <= n -> 0 <= soff -> soff + len <= zlen source ->
  0 <= doff -> doff + (len + n - 1) / n <= zlen dest ->
  Post (doPAA N source soff len n dest doff) (fun dest' =>
    zlen dest' = zlen dest /\
    (forall k, 0 <= k < (len + n - 1) / n -> zget dest' (doff + k) = Ok (mean (block source soff len n k))) /\
    (forall p, p < doff \/ doff + (len + n - 1) / n <= p -> zget dest' p = zget dest p)).
Proof.
  intros Hl Hn Hs Hsl Hd Hdl. set (m := (len + n - 1) / n) in *.
  assert (Hm : forall k, 0 <= k -> (k < m <-> k * n < len)).
  { intros k Hk. unfold m. replace (len + n - 1) with (len - 1 + 1 * n) by lia. rewrite Z.div_add by lia.
    pose proof (Z.div_mod (len - 1) n ltac:(lia)). pose proof (Z.mod_pos_bound (len - 1) n ltac:(lia)). split; intros; nia. }
  set (I := fun i (s : list T * T * Z) => let '(d, sum, count) := s in
    zlen d = zlen dest /\
    (i < len -> count = i mod n /\ sum = fold_left (nadd N) (zslice source (soff + (i - i mod n)) (i mod n)) (nzero N)) /\
    (forall k, 0 <= k -> k * n < len -> Z.min ((k + 1) * n) len <= i -> zget d (doff + k) = Ok (mean (block source soff len n k))) /\
    (forall p, p < doff \/ doff + m <= p -> zget d p = zget dest p)).
  unfold doPAA. eapply (Post_seq (fun s => I len s)).
  - replace (fun s : list T * T * Z => I len s) with (fun s => I (Z.max 0 len) s) by (now rewrite Z.max_r by lia).
    apply (for_rule I).
    + unfold I. split; auto. split. { intros _. rewrite Z.mod_0_l by lia. auto. } split; auto. intros k H1 H2 H3. exfalso. nia.
    + intros i ((d & sum) & count) Hi (I1 & I2 & I3 & I4). destruct (I2 ltac:(lia)) as (Hc & Hsum). clear I2.
      pose proof (Z.div_mod i n ltac:(lia)) as Edm. pose proof (Z.mod_pos_bound i n ltac:(lia)) as Hr.
      set (q := i / n) in *. set (r := i mod n) in *. assert (Hq : 0 <= q) by (apply Z.div_pos; lia).
      unfold paa_step. destruct (zget_Ok source (soff + i) ltac:(lia)) as (x & Hx). rewrite Hx. cbn [bind].
      assert (Es : zslice source (soff + (i - r)) (r + 1) = zslice source (soff + (i - r)) r ++ [x]).
      { apply zslice_snoc; [lia|lia|]. rewrite <- Hx. f_equal. lia. }
      assert (Esum : nadd N sum x = fold_left (nadd N) (zslice source (soff + (i - r)) (r + 1)) (nzero N)).
      { rewrite Es, fold_left_app. cbn. now rewrite Hsum. }
      destruct ((count + 1 =? n) || (i =? len - 1)) eqn:B.
      * assert (Hcnt : count + 1 = Z.min n (len - q * n)).
        { apply orb_true_iff in B as [B|B]; apply Z.eqb_eq in B; nia. }
        rewrite Z.quot_div_nonneg by lia. fold q.
        assert (Hqm : q < m) by (apply Hm; nia).
        pose proof (zset_Ok d (doff + q) (ndiv N (nadd N sum x) (nofZ N (count + 1))) ltac:(lia)) as Ed.
        revert Ed. generalize (list_set d (Z.to_nat (doff + q)) (ndiv N (nadd N sum x) (nofZ N (count + 1)))). intros d' Ed. rewrite Ed. cbn [bind].
        apply Post_Ok. unfold I. split; [apply zset_len in Ed; lia|].
        split.
        { intros Hlt. apply orb_true_iff in B as [B|B]; apply Z.eqb_eq in B; [|lia].
          assert (E0 : (i + 1) mod n = 0). { replace (i + 1) with ((q + 1) * n) by nia. apply Z.mod_mul. lia. }
          rewrite E0. auto. }
        split.
        { intros k H1 H2 H3. destruct (Z.eq_dec k q) as [->|Hk].
          - rewrite (zget_zset_eq _ _ _ _ Ed). f_equal. unfold mean, block. rewrite <- Hcnt.
            replace (soff + q * n) with (soff + (i - r)) by lia. rewrite Hc, <- Esum. f_equal. f_equal.
            rewrite zslice_len; lia.
          - rewrite (zget_zset_neq _ _ (doff + k) _ _ Ed) by lia. apply I3; auto. assert (k < q \/ q + 1 <= k) as [Hk'|Hk'] by lia.
            + assert ((k + 1) * n <= q * n) by (apply Z.mul_le_mono_nonneg_r; lia). lia.
            + assert ((q + 1) * n <= k * n) by (apply Z.mul_le_mono_nonneg_r; lia). lia. }
        { intros p Hp. rewrite (zget_zset_neq _ _ p _ _ Ed) by lia. auto. }
      * apply orb_false_iff in B as (B1 & B2). apply Z.eqb_neq in B1, B2. apply Post_Ok. unfold I. split; auto. split.
        { intros Hlt. assert (Em : (i + 1) mod n = r + 1). { symmetry. apply (Z.mod_unique_pos _ _ q); lia. }
          rewrite Em. split; [lia|]. replace (soff + (i + 1 - (r + 1))) with (soff + (i - r)) by lia. exact Esum. }
        split; auto. intros k H1 H2 H3. apply I3; auto. assert (k < q \/ q <= k) as [Hk'|Hk'] by lia.
        -- assert ((k + 1) * n <= q * n) by (apply Z.mul_le_mono_nonneg_r; lia). lia.
        -- assert ((q + 1) * n <= (k + 1) * n) by (apply Z.mul_le_mono_nonneg_r; lia). lia.
  - intros ((d & sum) & count) (I1 & _ & I3 & I4). apply Post_Ok. split; auto. split; auto. intros k Hk. apply I3; [lia| |lia]. apply Hm; lia.
Qed.

Lemma set_data_Ok h s b data : set_buf s = Some b -> heap_get N h b = Ok data -> set_data N h s = Ok data.
Proof. intros E H. unfold set_data. now rewrite E. Qed.

Theorem PAA_spec h s n b data : 1 <= n -> 1 <= set_len s -> 0 <= set_count s -> set_buf s = Some b -> heap_get N h b = Ok data ->
  set_count s * set_len s <= zlen data ->
  let m := (set_len s + n - 1) / n in
  exists new, PAA N h s n = Ok (hfree N h (Some b) ++ [Some new], mkSet (Some (length h)) m (set_count s) (set_path s) (set_norm s)) /\
    zlen new = set_count s * m /\
    forall t k, 0 <= t < set_count s -> 0 <= k < m -> zget new (t * m + k) = Ok (mean (block data (t * set_len s) (set_len s) n k)).
Proof.
  intros Hn Hl Hc Hb Hh Hz m. unfold PAA. rewrite paa_len by lia. fold m.
  assert (Hm : 1 <= m). { unfold m. apply Z.div_le_lower_bound; lia. }
  destruct (Z.leb_spec n 0); [lia|]. destruct (Z.ltb_spec (set_count s * m) 0); [nia|]. destruct (Z.leb_spec (set_len s) 0); [lia|]. cbn [andb].
  assert (P : Post (for_ 0 (set_count s) (fun t new_data => data <- set_data N h s ;; doPAA N data (t * set_len s) (set_len s) n new_data (t * m))
     (zrepeat (nzero N) (set_count s * m)))
    (fun new => zlen new = set_count s * m /\
       forall t k, 0 <= t < set_count s -> 0 <= k < m -> zget new (t * m + k) = Ok (mean (block data (t * set_len s) (set_len s) n k)))).
  { eapply Post_conseq.
    - apply (for_rule (fun i new => zlen new = set_count s * m /\
       forall t k, 0 <= t < i -> 0 <= k < m -> zget new (t * m + k) = Ok (mean (block data (t * set_len s) (set_len s) n k)))).
      + split; [apply zlen_zrepeat; lia|]. intros t k H2. lia.
      + intros i new Hi (J1 & J2). rewrite (set_data_Ok _ _ _ _ Hb Hh). cbn [bind]. eapply Post_conseq.
        * apply doPAA_spec; fold m; try lia; nia.
        * fold m. intros new' (K1 & K2 & K3). split; [lia|]. intros t k Ht Hk. destruct (Z.eq_dec t i) as [->|Hne]; [auto|].
          rewrite K3; [apply J2; lia|]. left. nia.
    - rewrite Z.max_r by lia. intros new X. exact X. }
  destruct (Post_inv _ _ P) as (new & E & X1 & X2). rewrite E. cbn [bind]. unfold halloc. rewrite Hb, hfree_length. exists new. auto.
Qed.
End DataProofs.
