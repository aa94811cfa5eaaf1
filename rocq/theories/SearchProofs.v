(** * The search of the UCR suite in exact arithmetic. *)
From Coq Require Import ZArith Bool Reals Lra Lia.
From Coq Require Import List.
From Verif Require TsProofs GroupProofs DataProofs SessionIndep.
From Verif Require Import Outcome Num RX Lemire LemireProofs Distance Laws RXLaws Spec DtwProofs Numeric Metric Kim Trillion TrillionSpec TrillionProofs TrillionBounds.
From Verif Require Import Search SearchSpec.
Import ListNotations.
Open Scope R_scope.

(** ** Means and deviations *)
Lemma rsum_app l l' : rsum (l ++ l') = rsum l + rsum l'.
Proof. induction l; cbn; lra. Qed.
Lemma rsum_dev c l : rsum (map (fun x => (x - c) * (x - c)) l) = rsum (map (fun x => x * x) l) - 2 * c * rsum l + rlen l * (c * c).
Proof.
  unfold rlen, zlen. induction l as [|x l IH]; [cbn; lra|]. cbn [map rsum]. rewrite IH. cbn [length]. rewrite Nat2Z.inj_succ, succ_IZR. nra.
Qed.
Lemma rlen_pos l : l <> [] -> 0 < rlen l.
Proof. intros H. unfold rlen, zlen. apply IZR_lt. destruct l; [contradiction|]. cbn [length]. lia. Qed.
Lemma rvar l : l <> [] -> rsum (map (fun x => x * x) l) / rlen l - rmean l * rmean l = rsum (map (fun x => (x - rmean l) * (x - rmean l)) l) / rlen l.
Proof. intros H. pose proof (rlen_pos l H) as P. rewrite rsum_dev. unfold rmean. field. lra. Qed.
Lemma rsum_pos l : (forall x, In x l -> 0 <= x) -> 0 <= rsum l.
Proof. induction l as [|x l IH]; intros H; cbn; [lra|]. assert (0 <= x) by (apply H; now left). assert (0 <= rsum l) by (apply IH; intros; apply H; now right). lra. Qed.
Lemma rsum_zero l : (forall x, In x l -> 0 <= x) -> rsum l = 0 -> forall x, In x l -> x = 0.
Proof.
  induction l as [|y l IH]; intros H E x; [intros []|]. cbn in E. assert (0 <= y) by (apply H; now left).
  assert (0 <= rsum l) by (apply rsum_pos; intros; apply H; now right). intros [->|Hx]; [lra|]. apply IH; auto; [intros; apply H; now right|lra].
Qed.
Definition dev2 (l : list R) : R := rsum (map (fun x => (x - rmean l) * (x - rmean l)) l) / rlen l.
Lemma dev2_pos l : l <> [] -> 0 <= dev2 l.
Proof.
  intros H. pose proof (rlen_pos l H). unfold dev2, Rdiv. apply Rmult_le_pos; [|apply Rlt_le, Rinv_0_lt_compat; auto].
  apply rsum_pos. intros x Hx. apply in_map_iff in Hx as (y & <- & _). apply Rle_0_sqr.
Qed.
Lemma varying_sd l : varying l -> 0 < rsd l.
Proof.
  intros (x & y & Hx & Hy & Hxy). assert (Hl : l <> []) by (intros ->; destruct Hx). pose proof (rlen_pos l Hl) as P. pose proof (dev2_pos l Hl) as D. unfold dev2 in D.
  unfold rsd. apply sqrt_lt_R0. destruct D as [D|D]; auto. exfalso.
  assert (Z : rsum (map (fun x => (x - rmean l) * (x - rmean l)) l) = 0). { apply (Rmult_eq_reg_r (/ rlen l)); [|apply Rinv_neq_0_compat; lra]. unfold Rdiv in D. lra. }
  assert (W : forall z, In z l -> z = rmean l).
  { intros z Hz. assert (X : (z - rmean l) * (z - rmean l) = 0). { eapply rsum_zero; [|exact Z|apply in_map_iff; eauto]. intros v Hv. apply in_map_iff in Hv as (u & <- & _). apply Rle_0_sqr. }
    apply Rmult_integral in X. lra. }
  rewrite (W x Hx), (W y Hy) in Hxy. auto.
Qed.
Lemma constant_mean l x : ~ varying l -> In x l -> x = rmean l.
Proof.
  intros H Hx. assert (W : forall z, In z l -> z = x). { intros z Hz. destruct (Req_EM_T z x); auto. exfalso. apply H. exists z, x. auto. }
  unfold rmean. assert (E : rsum l = rlen l * x).
  { clear Hx H. induction l as [|y l IH]; [cbn; unfold rlen, zlen; cbn; lra|]. cbn. rewrite (W y) by now left. rewrite IH by (intros; apply W; now right).
    unfold rlen, zlen. cbn [length]. rewrite Nat2Z.inj_succ, succ_IZR. lra. }
  assert (0 < rlen l) by (apply rlen_pos; intros ->; destruct Hx). rewrite E. field. lra.
Qed.
Lemma constant_dev l : ~ varying l -> dev2 l = 0.
Proof.
  intros H. unfold dev2. replace (rsum _) with 0; [unfold Rdiv; lra|]. symmetry.
  assert (W : forall z, In z l -> z - rmean l = 0) by (intros z Hz; rewrite (constant_mean l z H Hz) at 1; lra).
  revert W. generalize (rmean l) as c. clear H. induction l as [|y l IH]; intros c W; auto. cbn. rewrite (W y) by now left. rewrite IH by (intros; apply W; now right). lra.
Qed.
Lemma varying_dec l : varying l \/ ~ varying l.
Proof.
  destruct l as [|x l]; [right; intros (? & ? & [] & _)|].
  assert ((exists y, In y l /\ y <> x) \/ forall y, In y l -> y = x) as [(y & Hy & Hn)|H].
  { induction l as [|z l IH]; [right; intros ? []|]. destruct (Req_EM_T z x) as [E|E]; [|left; exists z; split; auto; now left].
    destruct IH as [(y & Hy & Hn)|H]; [left; exists y; split; auto; now right|]. right. intros y [<-|Hy]; auto. }
  - left. exists y, x. split; [now right|]. split; [now left|]. auto.
  - right. intros (u & v & Hu & Hv & Hn). apply Hn. transitivity x; [|symmetry]; [destruct Hu|destruct Hv]; auto.
Qed.

(** ** The code's mean and deviation *)
Lemma mean_rx l : l <> [] -> mean_of RX (Fin (rsum l)) (zlen l) = Fin (rmean l).
Proof.
  intros H. pose proof (rlen_pos l H) as P. unfold rlen in P. unfold mean_of. cbn. destruct (Req_EM_T (IZR (zlen l)) 0); [lra|]. reflexivity.
Qed.
Lemma std_rx l : l <> [] -> std_of RX (Fin (rsum l)) (Fin (rsum (map (fun x => x * x) l))) (zlen l) = Fin (rsd l).
Proof.
  intros H. pose proof (rlen_pos l H) as P. pose proof (rvar l H) as V. pose proof (dev2_pos l H) as D. unfold dev2 in D. unfold rlen in P. unfold std_of. rewrite mean_rx by auto.
  cbn. destruct (Req_EM_T (IZR (zlen l)) 0); [lra|]. cbn. unfold rlen in V.
  match goal with |- context [Rlt_dec ?v 0] => replace v with (rsum (map (fun x => (x - rmean l) * (x - rmean l)) l) / IZR (zlen l)) by (rewrite <- V; unfold Rminus, Rdiv; ring) end.
  unfold rlen in D. destruct Rlt_dec; [lra|]. reflexivity.
Qed.

(** ** A constant window is pruned by the first bound *)
Open Scope Z_scope.
Lemma kim_nan (t q : list rx) j m c bsf : 0 <= j -> j + m <= zlen t -> zlen q = m -> 3 <= m -> Forall dat_rx q ->
  (forall k, 0 <= k < m -> at_ RX t (j + k) = Fin c) -> t_kim RX t q j m (Fin c) (Fin 0) bsf = Ok NaN.
Proof.
  intros Hj Hjm Hqm Hm Dq Ht. change (num RX) with rx in *.
  assert (T : forall i k, 0 <= k < m -> i = j + k -> (x <- zget t i;; Ok (znorm RX (Fin c) (Fin 0) x)) = Ok NaN).
  { intros i k Hk ->. change (num RX) with rx. rewrite (zget_rx t (j + k)) by lia. cbn [bind]. rewrite Ht by lia. unfold znorm. cbn. destruct (Req_EM_T 0 0); [|lra].
    unfold rx_signed_inf. destruct (Rlt_dec 0 (c + - c)); [lra|]. destruct (Rlt_dec (c + - c) 0); [lra|]. reflexivity. }
  assert (Q : forall k, 0 <= k < m -> zget q k = Ok (Fin (rv (at_ RX q k)))).
  { intros k Hk. rewrite (zget_rx q k) by lia. f_equal. apply rv_Fin. now apply at_rx. }
  assert (B : forall x, nadd RX NaN x = NaN) by (intros []; reflexivity). assert (L : nleb RX bsf NaN = false) by (destruct bsf; reflexivity).
  assert (S : forall x, sqd RX NaN x = NaN) by (intros []; reflexivity).
  unfold t_kim. cbv zeta. change (num RX) with rx in *.
  rewrite (T j 0), (T (m - 1 + j) (m - 1)), (T (j + 1) 1), (T (m - 2 + j) (m - 2)), (T (j + 2) 2), (T (m - 3 + j) (m - 3)) by lia. cbn [bind].
  rewrite (Q 0), (Q 1), (Q 2), (Q (m - 1)), (Q (m - 2)), (Q (m - 3)) by lia. cbn [bind]. rewrite !S, !B, !L. reflexivity.
Qed.

(** ** Lists of reals and their slices *)
Definition rat (l : list R) (k : Z) : R := nth (Z.to_nat k) l 0%R.
Lemma at_fin l k : at_ RX (map Fin l) k = Fin (rat l k).
Proof. unfold at_, rat. change (nzero RX) with (Fin 0). apply map_nth. Qed.
Lemma fin_dat l : Forall dat_rx (map Fin l).
Proof. apply Forall_map, Forall_forall. intros x _. now exists x. Qed.
Lemma zget_fin l k : 0 <= k < zlen l -> zget (map Fin l) k = Ok (Fin (rat l k)).
Proof. intros H. rewrite (zget_rx (map Fin l) k) by (rewrite zlen_map; lia). now rewrite at_fin. Qed.
Lemma zslice_map {A B} (f : A -> B) l s n : zslice (map f l) s n = map f (zslice l s n).
Proof. unfold zslice. now rewrite skipn_map, firstn_map. Qed.
Lemma zget_rat l k : 0 <= k < zlen l -> zget l k = Ok (rat l k).
Proof. intros. now apply (zget_nth l k). Qed.
Lemma zslice_snoc' (l : list R) s k : 0 <= s -> 0 <= k -> s + k < zlen l -> zslice l s (k + 1) = zslice l s k ++ [rat l (s + k)].
Proof. intros. apply DataProofs.zslice_snoc; auto. apply zget_rat. lia. Qed.
Lemma zslice_cons (l : list R) s k : 0 <= s -> 0 <= k -> s < zlen l -> zslice l s (k + 1) = rat l s :: zslice l (s + 1) k.
Proof.
  intros Hs Hk Hl. unfold zslice, rat. replace (Z.to_nat (k + 1)) with (S (Z.to_nat k)) by lia. replace (Z.to_nat (s + 1)) with (S (Z.to_nat s)) by lia.
  assert (H : (Z.to_nat s < length l)%nat) by (unfold zlen in Hl; lia). revert H. generalize (Z.to_nat s). clear. intros s. revert l. induction s as [|s IH]; intros [|x l] H; cbn in *; try lia; auto. apply (IH l). lia.
Qed.
Lemma zslice_ext (l l' : list rx) s s' n : 0 <= s -> 0 <= s' -> 0 <= n -> s + n <= zlen l -> s' + n <= zlen l' ->
  (forall k, 0 <= k < n -> at_ RX l (s + k) = at_ RX l' (s' + k)) -> zslice l s n = zslice l' s' n.
Proof.
  intros H1 H2 H3 H4 H5 H. assert (L1 : zlen (zslice l s n) = n) by (apply TsProofs.zslice_len; auto). assert (L2 : zlen (zslice l' s' n) = n) by (apply TsProofs.zslice_len; auto).
  apply (nth_ext _ _ (Fin 0) (Fin 0)); [unfold zlen in *; lia|]. intros i Hi. assert (Hi' : 0 <= Z.of_nat i < n) by (unfold zlen in *; lia).
  pose proof (at_slice l s n (Z.of_nat i) H1 Hi' H4) as E1. pose proof (at_slice l' s' n (Z.of_nat i) H2 Hi' H5) as E2. unfold at_ in E1, E2. rewrite Nat2Z.id in E1, E2.
  change (nzero RX) with (Fin 0) in *. change (num RX) with rx in *. rewrite E1, E2. apply (H (Z.of_nat i) Hi').
Qed.
Lemma mod_window m I x : 0 < m -> 0 <= x < m -> (I + x) mod m = if I mod m + x <? m then I mod m + x else I mod m + x - m.
Proof.
  intros Hm Hx. pose proof (Z.mod_pos_bound I m Hm) as B. pose proof (Z.div_mod I m ltac:(lia)) as D.
  destruct (Z.ltb_spec (I mod m + x) m).
  - symmetry. apply (Z.mod_unique_pos _ _ (I / m)); lia.
  - symmetry. apply (Z.mod_unique_pos _ _ (I / m + 1)); lia.
Qed.

(** ** Envelopes *)
Lemma read_all_ok (l : list (option rx)) : (forall k, 0 <= k < zlen l -> exists x, zget l k = Ok (Some x)) ->
  exists v : list rx, read_all RX l = Ok v /\ zlen v = zlen l /\ forall k x, zget l k = Ok (Some x) -> zget v k = Ok x.
Proof.
  induction l as [|o l IH]; intros H.
  - exists []. split; auto. split; auto. intros k x E. apply zget_inv in E. unfold zlen in E. cbn in E. lia.
  - destruct (H 0) as (x & Ex); [unfold zlen; cbn [length]; lia|]. cbn in Ex. injection Ex as ->.
    destruct IH as (v & E & L & G).
    { intros k Hk. destruct (H (k + 1)) as (y & Ey); [unfold zlen in *; cbn [length]; lia|]. exists y. rewrite <- Ey. unfold zget. destruct (Z.ltb_spec k 0); [lia|]. destruct (Z.ltb_spec (k + 1) 0); [lia|].
      now replace (Z.to_nat (k + 1)) with (S (Z.to_nat k)) by lia. }
    exists (x :: v). cbn [read_all]. change (num RX) with rx in *. rewrite E. split; auto. split; [unfold zlen in *; cbn [length]; lia|].
    intros k y Ey. pose proof (zget_inv _ _ _ Ey) as (R & _). destruct (Z.eq_dec k 0) as [->|Hk]; [cbn in Ey; cbn; congruence|].
    specialize (G (k - 1) y). unfold zget in *. destruct (Z.ltb_spec k 0); [lia|]. destruct (Z.ltb_spec (k - 1) 0); [lia|]. replace (Z.to_nat k) with (S (Z.to_nat (k - 1))) in * by lia. now apply G.
Qed.
Lemma envelope_ok (B : list R) r : 1 <= zlen B -> 0 <= r <= zlen B - 1 -> exists l u l' u',
  lower_upper_lemire RX (map Fin B) r = Ok (l', u') /\ read_all RX l' = Ok l /\ read_all RX u' = Ok u /\ zlen l = zlen B /\ zlen u = zlen B /\ Forall dat_rx l /\ Forall dat_rx u /\
  forall o k, 0 <= o < zlen B -> 0 <= k < zlen B -> Z.abs (o - k) <= r -> le RX (at_ RX l o) (Fin (rat B k)) /\ le RX (Fin (rat B k)) (at_ RX u o).
Proof.
  intros Hl Hr. assert (Hm : zlen (map Fin B) = zlen B) by now rewrite zlen_map.
  assert (Ho : Forall ok_rx (map Fin B)) by (apply Forall_map, Forall_forall; intros; discriminate).
  destruct (Post_inv _ _ (lemire_spec RX ok_rx rx_ord (map Fin B) Ho r ltac:(change (num RX) with rx; lia))) as ((l', u') & E & L1 & L2 & H). cbn [fst snd] in *. change (num RX) with rx in *. rewrite Hm in *.
  destruct (read_all_ok l') as (l & El & Ll & Gl). { intros k Hk. destruct (H k ltac:(lia)) as ((x & Ex & _) & _). eauto. }
  destruct (read_all_ok u') as (u & Eu & Lu & Gu). { intros k Hk. destruct (H k ltac:(lia)) as (_ & (x & Ex & _)). eauto. }
  exists l, u, l', u'. do 3 (split; auto). split; [lia|]. split; [lia|].
  assert (A : forall k, 0 <= k < zlen B -> env_min RX (map Fin B) r k (at_ RX l k) /\ env_max RX (map Fin B) r k (at_ RX u k)).
  { intros k Hk. destruct (H k Hk) as ((x & Ex & Mx) & (y & Ey & My)). rewrite (at_zget _ _ _ (Gl _ _ Ex)), (at_zget _ _ _ (Gu _ _ Ey)). auto. }
  assert (D : forall v : list rx, zlen v = zlen B -> (forall k, 0 <= k < zlen B -> exists j, at_ RX v k = at_ RX (map Fin B) j) -> Forall dat_rx v).
  { intros v Lv Hv. apply Forall_forall. intros x Hx. apply In_nth_error in Hx as (n & Hn). assert (n < length v)%nat by (apply nth_error_Some; congruence).
    destruct (Hv (Z.of_nat n)) as (j & Ej); [unfold zlen in *; lia|]. exists (rat B j). rewrite <- at_fin, <- Ej. symmetry. apply at_zget. unfold zget. destruct (Z.ltb_spec (Z.of_nat n) 0); [lia|]. now rewrite Nat2Z.id, Hn. }
  split; [apply D; [lia|]; intros k Hk; destruct (A k Hk) as (((j & _ & Ej) & _) & _); eauto|].
  split; [apply D; [lia|]; intros k Hk; destruct (A k Hk) as (_ & ((j & _ & Ej) & _)); eauto|].
  intros o k Ho' Hk Hb. destruct (A o Ho') as ((_ & A1) & (_ & A2)). unfold le. rewrite <- at_fin. change (@zlen (num RX)) with (@zlen rx) in *. rewrite Hm in *. split; [apply A1|apply A2]; lia.
Qed.

(** ** One chunk *)
Definition sized (m : Z) (w : scratch RX) : Prop := @zlen rx (w_cb _ w) = m /\ @zlen rx (w_cb1 _ w) = m /\ @zlen rx (w_cb2 _ w) = m /\ @zlen rx (w_tz _ w) = m.

Section Proc.
Context (zq : list R) (order : list Z) (qo lo uo lq uq : list rx) (r : Z).
Local Notation m := (zlen zq).
Local Notation q := (map Fin zq).
Hypothesis H6 : 6 <= m.
Hypothesis Hr : 0 <= r <= m - 1.
Hypothesis Ho : ordering m order.
Hypothesis Sq : sorted_copy RX order q qo.
Hypothesis Sl : sorted_copy RX order lq lo.
Hypothesis Su : sorted_copy RX order uq uo.
Hypothesis Dl : Forall dat_rx lq.
Hypothesis Du : Forall dat_rx uq.
Hypothesis El : encloses RX m r q lq uq.
Local Notation qy := (mkQuery RX q order qo lo uo).

(** The window [W] held by the circular array at [j]. *)
Lemma one_window (t l u : list rx) (W : list R) j (w : scratch RX) (b : R) : zlen W = m -> 0 <= j -> j + m <= zlen t -> Forall dat_rx t -> zslice t j m = map Fin W ->
  Forall dat_rx l -> Forall dat_rx u -> encloses RX m r (map Fin W) l u -> sized m w -> (0 <= b <= IZR (10 ^ 20))%R ->
  exists res w', t_window RX t q order qo uo lo l u j m r (Fin (rmean W)) (Fin (rsd W)) (Fin b) w = Ok (res, w') /\ sized m w' /\
    ((~ varying W /\ res = None) \/
     (varying W /\ exists C, dtw_cost RX (map Fin (znormal W)) q r (Fin C) /\ (0 <= C)%R /\
        match res with Some d => (lt RX d (Fin b) /\ d = Fin C /\ (C < b)%R) \/ (~ lt RX d (Fin b) /\ (b <= C)%R) | None => (b <= C)%R end)).
Proof.
  intros LW Hj Hjm Dt Et Dl' Du' El' (Wb & W1 & W2 & Wz) Hb. destruct (varying_dec W) as [V|V].
  - pose proof (varying_sd W V) as Hs. assert (Hm : 1 <= m) by lia. assert (Dq : Forall dat_rx q) by apply fin_dat. assert (Lq : zlen q = m) by apply zlen_map.
    assert (Z : z_window RX t j m (Fin (rmean W)) (Fin (rsd W)) = map Fin (znormal W)).
    { unfold z_window. change (num RX) with rx. rewrite Et. unfold znormal. rewrite !map_map. apply map_ext. intros x. apply znorm_rx. lra. }
    pose proof (win_len t j m (rmean W) (rsd W) Hj Hjm Hm) as Wl. pose proof (win_dat t j m (rmean W) (rsd W) Dt Hs) as Wd. rewrite Z in Wl, Wd.
    destruct (cost_least (map Fin (znormal W)) q r Wd Dq (proj1 Hr) ltac:(rewrite Wl; lia) ltac:(rewrite Wl; lia)) as (C & HC & PC). rewrite Wl in HC.
    destruct (window_ok t q j m r (rmean W) (rsd W) Dt Dq Hj Hjm Lq Hm (proj1 Hr) Hs order qo uo lo lq uq l u (Fin b) w H6) with (C := Fin C) as (res & w' & E & L1 & L2 & L3 & L4 & H); auto.
    { right. exists b. split; auto. lra. } { rewrite big_rx. apply le_rx. lra. } { now rewrite Et. } { now rewrite Z. }
    exists res, w'. split; auto. split; [repeat split; auto|]. right. split; auto. exists C. split.
    { left. change (@zlen (num RX)) with (@zlen rx). now rewrite Wl, Lq. }
    split; auto.
    assert (X : forall y, lt RX (Fin y) (Fin b) <-> (y < b)%R). { intros y. unfold lt. cbn. unfold Rltb. destruct (Rlt_dec y b); split; auto; try discriminate; lra. }
    destruct res as [d|].
    + destruct H as (H1 & H2). destruct (nltb RX d (Fin b)) eqn:B.
      * left. pose proof (H1 B) as Ed. subst d. split; [exact B|]. split; [reflexivity|]. apply X. exact B.
      * right. split; [unfold lt; congruence|]. destruct (Rle_lt_dec b C) as [|Hc]; auto. apply X in Hc. specialize (H2 Hc). unfold lt in H2. congruence.
    + destruct (Rle_lt_dec b C) as [|Hc]; auto. apply X in Hc. contradiction.
  - exists None, w. split; [|split; [repeat split; auto|]; left; auto]. unfold t_window.
    assert (Hs : rsd W = 0%R). { unfold rsd. fold (dev2 W). rewrite (constant_dev W V). apply sqrt_0. } rewrite Hs.
    rewrite (kim_nan t q j m (rmean W) (Fin b)); [reflexivity|auto|auto|apply zlen_map|lia|apply fin_dat|].
    intros k Hk. rewrite <- (at_slice t j m k) by lia. rewrite Et, at_fin. f_equal. symmetry. rewrite (constant_mean W (rat W k) V); auto.
    unfold rat. apply nth_In. unfold zlen in *. lia.
Qed.

Section Chunk.
Context (B : list R) (base : Z) (P : Z -> R -> Z -> Prop).
Hypothesis HB : m <= zlen B.
Hypothesis Pb : forall K b loc, P K b loc -> (0 <= b <= IZR (10 ^ 20))%R.
Local Notation W I := (zslice B I m).
Hypothesis Pstep : forall I b loc, 0 <= I -> I + m <= zlen B -> P (base + I) b loc ->
  (~ varying (W I) -> P (base + I + 1) b loc) /\
  (forall C, varying (W I) -> dtw_cost RX (map Fin (znormal (W I))) q r (Fin C) -> (0 <= C)%R ->
     ((C < b)%R -> P (base + I + 1) C (base + I)) /\ ((b <= C)%R -> P (base + I + 1) b loc)).

Definition pinv (i : Z) (s : pstate RX) : Prop :=
  let '(ex, ex2, t, w, b) := s in
  let lo := Z.max 0 (i - (m - 1)) in
  ex = Fin (rsum (zslice B lo (i - lo))) /\ ex2 = Fin (rsum (map (fun x => x * x)%R (zslice B lo (i - lo)))) /\
  @zlen rx t = 2 * m /\ @Forall rx dat_rx t /\
  (forall k, Z.max 0 (i - m) <= k < i -> at_ RX t (k mod m) = Fin (rat B k) /\ at_ RX t (k mod m + m) = Fin (rat B k)) /\
  sized m w /\ exists bb, b_bsf _ b = Fin bb /\ P (base + lo) bb (b_loc _ b).

Lemma forall_set (l l' : list rx) i x : Forall dat_rx l -> dat_rx x -> zset l i x = Ok l' -> Forall dat_rx l'.
Proof.
  intros Hl Hx E. apply Forall_forall. intros y Hy. apply In_nth_error in Hy as (n & Hn). assert (n < length l')%nat by (apply nth_error_Some; congruence).
  assert (G : zget l' (Z.of_nat n) = Ok y) by (unfold zget; destruct (Z.ltb_spec (Z.of_nat n) 0); [lia|]; now rewrite Nat2Z.id, Hn).
  destruct (Z.eq_dec (Z.of_nat n) i) as [Hi|Hne].
  - rewrite Hi, (zget_zset_eq _ _ _ _ E) in G. congruence.
  - rewrite (zget_zset_neq _ _ _ _ _ E (not_eq_sym Hne)) in G. apply zget_inv in G as (_ & G). rewrite Forall_forall in Hl. apply Hl. eapply nth_error_In, G.
Qed.
Lemma mul_fin x y : nmul RX (Fin x) (Fin y) = Fin (x * y).
Proof. reflexivity. Qed.
Lemma sub_fin x y : nsub RX (Fin x) (Fin y) = Fin (x - y).
Proof. reflexivity. Qed.

Lemma step_ok (l u : list rx) i s : zlen l = zlen B -> zlen u = zlen B -> Forall dat_rx l -> Forall dat_rx u ->
  (forall o k, 0 <= o < zlen B -> 0 <= k < zlen B -> Z.abs (o - k) <= r -> le RX (at_ RX l o) (Fin (rat B k)) /\ le RX (Fin (rat B k)) (at_ RX u o)) ->
  0 <= i < zlen B -> pinv i s -> Post (p_step RX qy m r base (map Fin B) l u i s) (pinv (i + 1)).
Proof.
  intros Ll Lu Dl' Du' Env Hi. destruct s as ((((ex, ex2), t), w), b). intros (-> & -> & Lt & Dt & Ht & Sw & bb & Eb & HP).
  unfold p_step. change (num RX) with rx in *. rewrite zget_fin by lia. cbn [bind]. rewrite mul_fin, !add_rx.
  pose proof (Z.mod_pos_bound i m ltac:(lia)) as Mi.
  pose proof (zset_Ok t (i mod m) (Fin (rat B i)) ltac:(lia)) as E1. rewrite E1. set (t1 := list_set t _ _) in *. clearbody t1. pose proof (zset_len _ _ _ _ E1) as L1.
  cbn [bind]. pose proof (zset_Ok t1 (i mod m + m) (Fin (rat B i)) ltac:(lia)) as E2. rewrite E2. set (t2 := list_set t1 _ _) in *. clearbody t2. pose proof (zset_len _ _ _ _ E2) as L2. cbn [bind].
  assert (D2 : Forall dat_rx t2) by (eapply forall_set; [eapply forall_set; [exact Dt| |exact E1]| |exact E2]; eexists; reflexivity).
  assert (Ht2 : forall k, Z.max 0 (i + 1 - m) <= k < i + 1 -> at_ RX t2 (k mod m) = Fin (rat B k) /\ at_ RX t2 (k mod m + m) = Fin (rat B k)).
  { intros k Hk. destruct (Z.eq_dec k i) as [->|Hne].
    - split; apply at_zget; [|exact (zget_zset_eq _ _ _ _ E2)]. rewrite (zget_zset_neq _ _ (i mod m) _ _ E2) by lia. exact (zget_zset_eq _ _ _ _ E1).
    - pose proof (Z.mod_pos_bound k m ltac:(lia)) as Mk. destruct (Ht k ltac:(lia)) as (A1 & A2).
      assert (Hd : k mod m <> i mod m). { intros E. pose proof (mod_window m k (i - k) ltac:(lia) ltac:(lia)) as X. replace (k + (i - k)) with i in X by lia. destruct (Z.ltb_spec (k mod m + (i - k)) m); lia. }
      split; [rewrite <- A1|rewrite <- A2]; apply at_zget; rewrite (zget_zset_neq _ _ _ _ _ E2), (zget_zset_neq _ _ _ _ _ E1) by lia; apply zget_rx; lia. }
  set (lo0 := Z.max 0 (i - (m - 1))) in *.
  assert (Es : zslice B lo0 (i + 1 - lo0) = zslice B lo0 (i - lo0) ++ [rat B i]).
  { replace (i + 1 - lo0) with (i - lo0 + 1) by lia. rewrite zslice_snoc' by lia. now replace (lo0 + (i - lo0)) with i by lia. }
  assert (Ex : (rsum (zslice B lo0 (i - lo0)) + rat B i)%R = rsum (zslice B lo0 (i + 1 - lo0))). { rewrite Es, rsum_app. cbn. lra. }
  assert (Ex2 : (rsum (map (fun x => x * x)%R (zslice B lo0 (i - lo0))) + rat B i * rat B i)%R = rsum (map (fun x => x * x)%R (zslice B lo0 (i + 1 - lo0)))). { rewrite Es, map_app, rsum_app. cbn. lra. }
  rewrite Ex, Ex2. clear Ex Ex2 Es.
  destruct (Z.leb_spec (m - 1) i) as [Hge|Hlt].
  - assert (lo0 = i - (m - 1)) by lia. subst lo0. rewrite H in *. set (I := i - (m - 1)) in *. replace (i + 1 - I) with m in * by lia.
    assert (LW : zlen (W I) = m) by (apply TsProofs.zslice_len; lia).
    assert (HW : W I <> []) by (intros X; rewrite X in LW; change (zlen []) with 0 in LW; lia).
    assert (Hj : (i + 1) mod m = I mod m). { replace (i + 1) with (I + 1 * m) by lia. apply Z.mod_add. lia. }
    rewrite Hj. set (j := I mod m) in *. pose proof (Z.mod_pos_bound I m ltac:(lia)) as Mj. fold j in Mj.
    assert (Et : zslice t2 j m = map Fin (W I)).
    { rewrite <- zslice_map. apply zslice_ext; [lia|lia|lia|lia|rewrite zlen_map; lia|]. intros k Hk. rewrite at_fin. pose proof (mod_window m I k ltac:(lia) Hk) as X. fold j in X.
      destruct (Ht2 (I + k) ltac:(lia)) as (A1 & A2). rewrite X in A1, A2. destruct (Z.ltb_spec (j + k) m); auto. replace (j + k - m + m) with (j + k) in A2 by lia. auto. }
    assert (Emean : mean_of RX (Fin (rsum (W I))) m = Fin (rmean (W I))) by (pose proof (mean_rx _ HW) as X; now rewrite LW in X).
    assert (Estd : std_of RX (Fin (rsum (W I))) (Fin (rsum (map (fun x => x * x)%R (W I)))) m = Fin (rsd (W I))) by (pose proof (std_rx _ HW) as X; now rewrite LW in X).
    rewrite Emean, Estd. cbn [qu_q qu_order qu_qo qu_uo qu_lo]. rewrite Eb.
    assert (SK : forall v : list rx, zlen v = zlen B -> zlen (skipn (Z.to_nat I) v) = zlen B - I). { intros v Lv. unfold zlen in *. rewrite skipn_length. lia. }
    assert (AK : forall (v : list rx) o, 0 <= o -> at_ RX (skipn (Z.to_nat I) v) o = at_ RX v (I + o)).
    { intros v o Ho'. unfold at_. replace (Z.to_nat (I + o)) with (Z.to_nat I + Z.to_nat o)%nat by lia. generalize (Z.to_nat I) (Z.to_nat o). clear. intros n k. revert v. induction n as [|n IH]; intros v; auto. destruct v as [|x v]; [destruct k; reflexivity|apply IH]. }
    assert (DK : forall v : list rx, Forall dat_rx v -> Forall dat_rx (skipn (Z.to_nat I) v)).
    { intros v Dv. apply Forall_forall. intros x Hx. rewrite Forall_forall in Dv. apply Dv. rewrite <- (firstn_skipn (Z.to_nat I) v). apply in_or_app. auto. }
    destruct (one_window t2 (skipn (Z.to_nat I) l) (skipn (Z.to_nat I) u) (W I) j w bb LW ltac:(lia) ltac:(lia) D2 Et (DK l Dl') (DK u Du')) as (res & w' & E & Sw' & H1); auto.
    { split; [change (num RX) with rx; rewrite zlen_map; lia|]. change (num RX) with rx. rewrite (SK l Ll), (SK u Lu). split; [lia|]. split; [lia|]. intros o k Ho' Hk Hb. rewrite !AK by lia. rewrite at_fin.
      assert (Ek : rat (W I) k = rat B (I + k)). { pose proof (at_slice (map Fin B) I m k ltac:(lia) Hk ltac:(rewrite zlen_map; lia)) as X. rewrite zslice_map, !at_fin in X. congruence. }
      rewrite Ek. apply Env; lia. }
    { now apply Pb in HP. }
    change (num RX) with rx in *. rewrite E. cbn [bind]. rewrite (zget_rx t2 j) by lia. cbn [bind].
    assert (Aj : at_ RX t2 j = Fin (rat B I)). { destruct (Ht2 I ltac:(lia)) as (A1 & _). exact A1. }
    rewrite Aj. rewrite mul_fin, !sub_fin. cbn [Post wp]. unfold pinv. replace (Z.max 0 (i + 1 - (m - 1))) with (I + 1) by lia. replace (i + 1 - (I + 1)) with (m - 1) by lia.
    assert (Ec : W I = rat B I :: zslice B (I + 1) (m - 1)). { replace m with (m - 1 + 1) at 1 by lia. apply zslice_cons; lia. }
    split; [f_equal; rewrite Ec; cbn; lra|]. split; [f_equal; rewrite Ec; cbn; lra|]. split; [lia|]. split; auto. split; [intros k Hk; apply Ht2; lia|]. split; auto.
    destruct (Pstep I bb (b_loc RX b) ltac:(lia) ltac:(lia) HP) as (P1 & P2). replace (base + (I + 1)) with (base + I + 1) by lia.
    destruct H1 as [(V & ->)|(V & C & HC & PC & H1)].
    + exists bb. auto.
    + destruct (P2 C V HC PC) as (P3 & P4). destruct res as [d|]; [|exists bb; auto].
      destruct H1 as [(Hd & -> & Hc)|(Hd & Hc)].
      * unfold lt in Hd. rewrite Hd. exists C. cbn [b_bsf b_loc]. split; auto. replace (base + i - m + 1) with (base + I) by lia. auto.
      * unfold lt in Hd. destruct (nltb RX d (Fin bb)); [now destruct Hd|]. exists bb. auto.
  - cbn [Post wp]. unfold pinv. replace (Z.max 0 (i + 1 - (m - 1))) with lo0 by lia. split; auto. split; auto. split; [lia|]. split; auto. split; [intros k Hk; apply Ht2; lia|]. split; auto. exists bb; auto.
Qed.

Lemma chunk_ok (t : list rx) (w : scratch RX) (b : best RX) bb : zlen t = 2 * m -> Forall dat_rx t -> sized m w -> b_bsf _ b = Fin bb -> P base bb (b_loc _ b) ->
  Post (chunk RX qy m r base (map Fin B) t w b) (fun s => let '(t', w', b') := s in
    @zlen rx t' = 2 * m /\ @Forall rx dat_rx t' /\ sized m w' /\ exists bb', b_bsf _ b' = Fin bb' /\ P (base + (zlen B - m + 1)) bb' (b_loc _ b')).
Proof.
  intros Lt Dt Sw Eb HP. unfold chunk. destruct (envelope_ok B r ltac:(lia) ltac:(lia)) as (l & u & l' & u' & E1 & E2 & E3 & Ll & Lu & Dl' & Du' & Env).
  rewrite E1. cbn [bind]. rewrite E2. cbn [bind]. rewrite E3. cbn [bind]. apply (Post_seq (pinv (zlen B))).
  - eapply Post_conseq; [apply (for_rule pinv)|].
    + unfold pinv. change (num RX) with rx in *. rewrite Z.max_l by lia. split; auto. split; auto. split; auto. split; auto. split; [intros k Hk; lia|]. split; auto. exists bb. split; auto. now rewrite Z.add_0_r.
    + intros i s Hi Hs. apply step_ok; auto. change (num RX) with rx in *. rewrite zlen_map in Hi. lia.
    + intros s Hs. change (num RX) with rx in *. rewrite zlen_map in Hs. now rewrite Z.max_r in Hs by lia.
  - intros ((((ex, ex2), t'), w'), b') (_ & _ & L & D & _ & Sw' & bb' & Eb' & HP'). cbn [Post wp]. split; auto. split; auto. split; auto. exists bb'. split; auto.
    replace (Z.max 0 (zlen B - (m - 1))) with (zlen B - m + 1) in HP' by lia. auto.
Qed.
End Chunk.
End Proc.

(** ** The files *)
Lemma read_n_ok n : forall (xs : list R) bad (d : option rx), bad = false \/ (n <= length xs)%nat -> exists d',
  read_n RX n (mkNFile RX (map Fin xs) bad) d = Ok (map Fin (firstn n xs), mkNFile RX (map Fin (skipn n xs)) bad, d') /\ (d' = d \/ exists x, d' = Some (Fin x)).
Proof.
  induction n as [|n IH]; intros xs bad d H; [exists d; cbn; auto|]. destruct xs as [|x xs].
  - destruct H as [->|H]; [|cbn in H; lia]. exists d. cbn. auto.
  - destruct (IH xs bad (Some (Fin x))) as (d' & E & Hd); [destruct H; [now left|right; cbn in *; lia]|]. exists d'. cbn. rewrite E. cbn. split; auto. right. destruct Hd as [->|]; eauto.
Qed.
Lemma read_n_stuck n x : read_n RX n (mkNFile RX [] true) (Some (Fin x)) = Ok (map Fin (repeat x n), mkNFile RX [] true, Some (Fin x)).
Proof. induction n as [|n IH]; auto. cbn in *. rewrite IH. reflexivity. Qed.
Lemma read_n_bad n : forall (xs : list R) x, exists l y ys, read_n RX n (mkNFile RX (map Fin xs) true) (Some (Fin x)) = Ok (map Fin l, mkNFile RX (map Fin ys) true, Some (Fin y)) /\ length l = n.
Proof.
  induction n as [|n IH]; intros xs x; [exists [], x, xs; auto|]. destruct xs as [|z xs].
  - destruct (IH [] x) as (l & y & ys & E & L). exists (x :: l), y, ys. cbn in *. rewrite E. cbn. auto.
  - destruct (IH xs z) as (l & y & ys & E & L). exists (z :: l), y, ys. cbn in *. rewrite E. cbn. auto.
Qed.
Lemma read_query_ok (ys extra : list R) bad : forall (d : option rx) q (a b : R), exists d',
  read_query RX (length ys) (mkNFile RX (map Fin (ys ++ extra)) bad) d q (Fin a) (Fin b) =
  Ok (q ++ map Fin ys, Fin (a + rsum ys), Fin (b + rsum (map (fun x => x * x)%R ys)), d') /\ (d' = d \/ exists x, d' = Some (Fin x)) /\ (ys <> [] -> exists x, d' = Some (Fin x)).
Proof.
  induction ys as [|y ys IH]; intros d q a b.
  - cbn [app length map rsum]. assert (Ea : Fin (a + 0) = Fin a) by (f_equal; lra). assert (Eb : Fin (b + 0) = Fin b) by (f_equal; lra). rewrite Ea, Eb, app_nil_r.
    destruct extra as [|e ex]; cbn.
    + destruct bad; cbn; eexists; split; try reflexivity; split; auto; now intros [].
    + eexists. split; [reflexivity|]. split; [right; eauto|now intros []].
  - cbn [app length map rsum read_query scan f_vals]. cbn [read_query scan f_vals f_bad].
    destruct (IH (Some (Fin y)) (q ++ [Fin y]) (a + y)%R (b + y * y)%R) as (d' & E & Hd & _). exists d'.
    change (nmul RX (Fin y) (Fin y)) with (Fin (y * y)). change (nadd RX (Fin a) (Fin y)) with (Fin (a + y)). change (nadd RX (Fin b) (Fin (y * y))) with (Fin (b + y * y)).
    change (num RX) with rx in *. rewrite E. rewrite <- app_assoc. cbn [app]. split; [do 3 f_equal; [f_equal|]; f_equal; lra|]. assert (exists x, d' = Some (Fin x)) by (destruct Hd as [->|]; eauto). auto.
Qed.
Lemma gather_ok (x : list rx) order : Forall (fun o => 0 <= o < zlen x) order -> exists xo : list rx, gather RX x order = Ok xo /\ sorted_copy RX order x xo.
Proof.
  induction order as [|o order IH]; intros H.
  - exists []. split; auto. split; auto. intros i o E. apply zget_inv in E. unfold zlen in E. cbn in E. lia.
  - inversion H as [|? ? Ho Hl]; subst. destruct (IH Hl) as (l & E & L & G). cbn [gather]. change (num RX) with rx in *. rewrite (zget_rx x o) by lia. cbn [bind]. rewrite E. cbn [bind]. eexists. split; [reflexivity|].
    split; [unfold zlen in *; cbn [length]; change (num RX) with rx in *; lia|]. intros i o' Ei. pose proof (zget_inv _ _ _ Ei) as (R & _). destruct (Z.eq_dec i 0) as [->|Hi].
    + cbn in Ei. injection Ei as <-. change (num RX) with rx. rewrite (zget_rx x o) by lia. reflexivity.
    + specialize (G (i - 1) o'). unfold zget in *. destruct (Z.ltb_spec i 0); [lia|]. destruct (Z.ltb_spec (i - 1) 0); [lia|]. replace (Z.to_nat i) with (S (Z.to_nat (i - 1))) in * by lia. now apply G.
Qed.

(** ** The query *)
Definition ready (zq : list R) (r : Z) (qy : query RX) : Prop := exists order qo lo uo lq uq : list _,
  qy = mkQuery RX (map Fin zq) order qo lo uo /\ ordering (zlen zq) order /\ sorted_copy RX order (map Fin zq) qo /\ sorted_copy RX order lq lo /\ sorted_copy RX order uq uo /\
  @Forall rx dat_rx lq /\ @Forall rx dat_rx uq /\ encloses RX (zlen zq) r (map Fin zq) lq uq.
Lemma prepare_ok sort (ys extra : list R) bad r : 1 <= zlen ys -> 0 <= r <= zlen ys - 1 -> varying ys -> (forall l : list rx, ordering (zlen l) (sort l)) ->
  exists qy x, prepare RX sort (mkNFile RX (map Fin (ys ++ extra)) bad) (zlen ys) r = Ok (qy, Some (Fin x)) /\ ready (znormal ys) r qy.
Proof.
  intros Hm Hr V Hsort. assert (Hy : ys <> []) by (intros ->; cbn in Hm; lia). unfold prepare. change (nzero RX) with (Fin 0).
  destruct (read_query_ok ys extra bad None [] 0 0) as (d & E & _ & Hd). destruct (Hd Hy) as (x & ->). clear Hd.
  assert (Hl : Z.to_nat (zlen ys) = length ys) by (unfold zlen; lia). change (num RX) with rx in *. rewrite Hl, E. cbn [bind app]. change (num RX) with rx. rewrite zlen_map.
  destruct (Z.ltb_spec (zlen ys) (zlen ys)); [lia|]. rewrite !Rplus_0_l, mean_rx, std_rx by auto.
  assert (Z : map (znorm RX (Fin (rmean ys)) (Fin (rsd ys))) (map Fin ys) = map Fin (znormal ys)). { unfold znormal. rewrite !map_map. apply map_ext. intros y. apply znorm_rx. pose proof (varying_sd ys V). lra. }
  change (num RX) with rx in *. rewrite Z. assert (Lz : zlen (znormal ys) = zlen ys) by (unfold znormal; apply zlen_map).
  destruct (envelope_ok (znormal ys) r ltac:(lia) ltac:(lia)) as (l & u & l' & u' & E1 & E2 & E3 & Ll & Lu & Dl' & Du' & Env).
  rewrite E1. cbn [bind]. rewrite E2. cbn [bind]. rewrite E3. cbn [bind]. pose proof (Hsort (map Fin (znormal ys))) as Ho. change (num RX) with rx in *. rewrite zlen_map in Ho.
  destruct Ho as (O1 & O2 & O3). set (order := sort _) in *. clearbody order.
  destruct (gather_ok (map Fin (znormal ys)) order) as (qo & G1 & S1); [now rewrite zlen_map|]. destruct (gather_ok u order) as (uo & G2 & S2); [now rewrite Lu|]. destruct (gather_ok l order) as (lo & G3 & S3); [now rewrite Ll|].
  change (num RX) with rx in *. rewrite G1. cbn [bind]. rewrite G2. cbn [bind]. rewrite G3. cbn [bind]. eexists _, x. split; [reflexivity|]. exists order, qo, lo, uo, l, u.
  split; auto. split; [repeat split; auto|]. do 5 (split; auto). split; [change (num RX) with rx; rewrite zlen_map; lia|]. split; [change (num RX) with rx; lia|]. split; [change (num RX) with rx; lia|].
  intros o k Ho Hk Hb. rewrite at_fin. apply Env; lia.
Qed.

(** ** All chunks *)
Lemma cost_one (a b : list rx) r C D : dtw_cost RX a b r (Fin C) -> dtw_cost RX a b r (Fin D) -> C = D.
Proof.
  intros [((p & Hp & Ep) & HC)|(_ & E)] [((p' & Hp' & Ep') & HD)|(_ & E')]; try discriminate.
  specialize (HC p' Hp'). specialize (HD p Hp). rewrite Ep' in HC. rewrite Ep in HD. cbn in HC, HD. unfold Rltb in *. destruct (Rlt_dec D C); [discriminate|]. destruct (Rlt_dec C D); [discriminate|]. lra.
Qed.
Lemma skipn_skipn {A} (l : list A) : forall b a, skipn a (skipn b l) = skipn (a + b) l.
Proof.
  induction l as [|x l IH]; intros b a; [now rewrite !skipn_nil|]. destruct b as [|b]; [now rewrite Nat.add_0_r|]. rewrite Nat.add_succ_r. apply IH.
Qed.
Lemma zslice_sub {A} (l : list A) s n k m : 0 <= s -> 0 <= k -> 0 <= m -> k + m <= n -> zslice (zslice l s n) k m = zslice l (s + k) m.
Proof.
  intros Hs Hk Hm Hn. unfold zslice. rewrite skipn_firstn_comm, firstn_firstn, skipn_skipn. f_equal; [lia|]. f_equal. lia.
Qed.
Lemma zslice_split {A} (l : list A) s n k : 0 <= s -> 0 <= n -> 0 <= k -> zslice l s n ++ zslice l (s + n) k = zslice l s (n + k).
Proof.
  intros Hs Hn Hk. unfold zslice. replace (Z.to_nat (s + n)) with (Z.to_nat n + Z.to_nat s)%nat by lia. rewrite <- skipn_skipn. replace (Z.to_nat (n + k)) with (Z.to_nat n + Z.to_nat k)%nat by lia.
  generalize (skipn (Z.to_nat s) l) (Z.to_nat n) (Z.to_nat k). clear. intros l n. revert l. induction n as [|n IH]; intros l k; cbn; auto. destruct l; cbn; [now rewrite firstn_nil|]. f_equal. apply IH.
Qed.
Lemma zslice_len_min {A} (l : list A) s n : 0 <= s <= zlen l -> 0 <= n -> zlen (zslice l s n) = Z.min n (zlen l - s).
Proof. intros Hs Hn. unfold zslice, zlen in *. rewrite firstn_length, skipn_length. lia. Qed.

Section All.
Context (xs ys : list R) (r epoch : Z).
Local Notation m := (zlen ys).
Hypothesis H6 : 6 <= m.
Hypothesis He : m <= epoch.
Hypothesis Hr : 0 <= r <= m - 1.
Definition good (K : Z) (b : R) (loc : Z) : Prop := nearest xs ys r K loc b /\ (0 <= b <= IZR (10 ^ 20))%R.
Lemma good_step K b loc : 0 <= K -> good K b loc ->
  (~ varying (zslice xs K m) -> good (K + 1) b loc) /\
  (forall C, varying (zslice xs K m) -> dtw_cost RX (map Fin (znormal (zslice xs K m))) (map Fin (znormal ys)) r (Fin C) -> (0 <= C)%R ->
     ((C < b)%R -> good (K + 1) C K) /\ ((b <= C)%R -> good (K + 1) b loc)).
Proof.
  unfold good, nearest. generalize (IZR (10 ^ 20)). intros M HK ((H1 & H2) & Hb).
  assert (keep : (forall C, window_distance xs ys r K C -> (b <= C)%R) -> ((forall k C, 0 <= k < K + 1 -> window_distance xs ys r k C -> (b <= C)%R) /\
    ((b = M /\ loc = 0) \/ ((b < M)%R /\ 0 <= loc < K + 1 /\ window_distance xs ys r loc b /\ forall k C, 0 <= k < loc -> window_distance xs ys r k C -> (b < C)%R))) /\ (0 <= b <= M)%R).
  { intros H. split; [|auto]. split.
    - intros k C Hk HC. destruct (Z.eq_dec k K) as [->|]; [auto|]. apply (H1 k); auto. lia.
    - destruct H2 as [?|(? & ? & ? & ?)]; [left|right]; auto. split; auto. split; [lia|]. auto. }
  split.
  - intros V. apply keep. intros C (V' & _). contradiction.
  - intros C V HC PC. split.
    + intros Hlt. split; [|lra]. split.
      * intros k D Hk HD. destruct (Z.eq_dec k K) as [->|]; [destruct HD as (_ & HD); rewrite (cost_one _ _ _ _ _ HC HD); lra|]. pose proof (H1 k D ltac:(lia) HD). lra.
      * right. split; [lra|]. split; [lia|]. split; [now split|]. intros k D Hk HD. pose proof (H1 k D ltac:(lia) HD). lra.
    + intros Hge. apply keep. intros D (_ & HD). now rewrite <- (cost_one _ _ _ _ _ HC HD).
Qed.

Lemma ready_chunk (B : list R) (qy : query RX) base (P : Z -> R -> Z -> Prop) (t : list rx) (w : scratch RX) (b : best RX) bb : ready (znormal ys) r qy -> m <= zlen B ->
  (forall K b loc, P K b loc -> (0 <= b <= IZR (10 ^ 20))%R) ->
  (forall I b loc, 0 <= I -> I + m <= zlen B -> P (base + I) b loc ->
    (~ varying (zslice B I m) -> P (base + I + 1) b loc) /\
    (forall C, varying (zslice B I m) -> dtw_cost RX (map Fin (znormal (zslice B I m))) (map Fin (znormal ys)) r (Fin C) -> (0 <= C)%R ->
       ((C < b)%R -> P (base + I + 1) C (base + I)) /\ ((b <= C)%R -> P (base + I + 1) b loc))) ->
  zlen t = 2 * m -> Forall dat_rx t -> sized m w -> b_bsf _ b = Fin bb -> P base bb (b_loc _ b) ->
  exists (t' : list rx) w' b' bb', chunk RX qy m r base (map Fin B) t w b = Ok (t', w', b') /\
    zlen t' = 2 * m /\ Forall dat_rx t' /\ sized m w' /\ b_bsf _ b' = Fin bb' /\ P (base + (zlen B - m + 1)) bb' (b_loc _ b').
Proof.
  intros (order & qo & lo & uo & lq & uq & -> & Ho & S1 & S2 & S3 & D1 & D2 & En) HB Pb Ps Lt Dt Sw Eb HP.
  assert (Lz : zlen (znormal ys) = m) by (unfold znormal; apply zlen_map). rewrite <- Lz in *.
  destruct (Post_inv _ _ (chunk_ok (znormal ys) order qo lo uo lq uq r H6 Hr Ho S1 S2 S3 D1 D2 En B base P HB Pb Ps t w b bb Lt Dt Sw Eb HP)) as (((t', w'), b') & E & H1 & H2 & H3 & bb' & H4 & H5).
  exists t', w', b', bb'. auto 10.
Qed.

Lemma chunks_ok qy : ready (znormal ys) r qy -> forall fuel it (f : list R) (d : option rx) (buffer : list rx) (t : list rx) (w : scratch RX) (b : best RX) bb,
  let base := it * (epoch - m + 1) in let n := zlen xs in
  0 <= it -> (n < Z.of_nat fuel + base) ->
  ((it = 0 /\ f = xs) \/ (0 < it /\ base + (m - 1) <= n /\ f = skipn (Z.to_nat (base + (m - 1))) xs /\ zslice buffer (epoch - m + 1) (m - 1) = map Fin (zslice xs base (m - 1)))) ->
  zlen t = 2 * m -> Forall dat_rx t -> sized m w -> b_bsf _ b = Fin bb -> good base bb (b_loc _ b) ->
  exists loc B, chunks RX fuel epoch qy m r it (mkNFile RX (map Fin f) false) d buffer t w b = Ok (mkFound RX loc (Fin B) (Z.max n (m - 1))) /\ good (Z.max 0 (n - m + 1)) B loc.
Proof.
  intros Hq. induction fuel as [|fuel IH]; intros it f d buffer t w b bb base n Hit Hf Hfile Lt Dt Sw Eb HP.
  - subst base. assert (0 <= it * (epoch - m + 1)) by nia. unfold n in Hf. destruct Hfile as [(-> & _)|(Hi & Hb & _)]; [|lia]. unfold zlen in Hf. lia.
  - cbn [chunks]. assert (Hb0 : 0 <= base) by (subst base; nia).
    set (hd := zslice xs base (m - 1)). set (rest := skipn (Z.to_nat (base + (m - 1))) xs).
    assert (Hn0 : 0 <= n) by (unfold n, zlen; lia).
    assert (Hhead : exists d', (if it =? 0 then read_n RX (Z.to_nat (m - 1)) (mkNFile RX (map Fin f) false) d else Ok (zslice buffer (epoch - m + 1) (m - 1), mkNFile RX (map Fin f) false, d)) = Ok (map Fin hd, mkNFile RX (map Fin rest) false, d')).
    { destruct Hfile as [(-> & ->)|(Hi & Hb & -> & Eh)].
      - destruct (read_n_ok (Z.to_nat (m - 1)) xs false d) as (d' & E & _); [now left|]. exists d'. cbn [Z.eqb]. change (num RX) with rx in *. rewrite E. unfold hd, rest, base, zslice. reflexivity.
      - exists d. destruct (Z.eqb_spec it 0); [lia|]. change (num RX) with rx in *. now rewrite Eh. }
    destruct Hhead as (d1 & E1). change (num RX) with rx in *. rewrite E1. cbn [bind]. clear E1. rewrite zlen_map.
    assert (Lhd : zlen hd <= m - 1) by (unfold hd, zslice, zlen; rewrite firstn_length; unfold zlen in H6; lia).
    destruct (Z.ltb_spec epoch (zlen hd)); [lia|].
    destruct (read_n_ok (Z.to_nat (epoch - (m - 1))) rest false d1) as (d2 & E2 & _); [now left|]. change (num RX) with rx in *. rewrite E2. cbn [bind]. clear E2. rewrite zlen_map.
    set (tl := firstn _ rest). assert (Etl : tl = zslice xs (base + (m - 1)) (epoch - (m - 1))) by reflexivity.
    assert (Hcase : n <= base + (m - 1) \/ base + (m - 1) < n) by lia. destruct Hcase as [Hsmall|Hbig].
    + assert (tl = []). { rewrite Etl. unfold zslice. rewrite skipn_all2 by (apply Nat2Z.inj_le; change (Z.of_nat (length xs)) with n; rewrite Z2Nat.id; lia). now rewrite firstn_nil. }
      rewrite H0. change (zlen []) with 0. cbn [Z.eqb]. exists (b_loc _ b), bb. fold base. rewrite Eb.
      assert (Hmax : base + (m - 1 + 0) = Z.max n (m - 1) /\ Z.max 0 (n - m + 1) = base). { destruct Hfile as [(-> & _)|(? & ? & _)]; subst base; lia. }
      destruct Hmax as (-> & ->). auto.
    + assert (Ltl : zlen tl = Z.min (epoch - (m - 1)) (n - (base + (m - 1)))) by (rewrite Etl; apply zslice_len_min; unfold n in *; lia).
      destruct (Z.eqb_spec (zlen tl) 0); [lia|]. rewrite <- map_app.
      assert (EB : hd ++ tl = zslice xs base epoch). { rewrite Etl. unfold hd. rewrite zslice_split by lia. f_equal. lia. }
      rewrite EB. set (B := zslice xs base epoch). assert (LB : zlen B = Z.min epoch (n - base)) by (apply zslice_len_min; unfold n in *; lia).
      fold base. destruct (ready_chunk B qy base good t w b bb Hq) as (t' & w' & b' & bb' & E & Lt' & Dt' & Sw' & Eb' & HP'); auto.
      { lia. } { now intros ? ? ? (_ & ?). }
      { intros I b0 loc HI HIm HPI. assert (EW : zslice B I m = zslice xs (base + I) m) by (apply zslice_sub; lia). rewrite EW. apply good_step; auto. lia. }
      change (num RX) with rx in *. rewrite E. cbn [bind]. replace (m - 1 + zlen tl) with (zlen B) by lia.
      destruct (Z.ltb_spec (zlen B) epoch).
      * exists (b_loc _ b'), bb'. rewrite Eb'. replace (base + zlen B) with (Z.max n (m - 1)) by lia. replace (base + (zlen B - m + 1)) with (Z.max 0 (n - m + 1)) in HP' by lia. auto.
      * assert (Enext : (it + 1) * (epoch - m + 1) = base + (zlen B - m + 1)) by (unfold base; lia).
        specialize (IH (it + 1) (skipn (Z.to_nat (epoch - (m - 1))) rest) d2 (map Fin B) t' w' b' bb'). cbv zeta in IH. rewrite Enext in IH. apply IH; auto; [lia|unfold n in *; lia|].
        right. split; [lia|]. split; [unfold n in *; lia|]. split.
        -- unfold rest. rewrite skipn_skipn. f_equal. lia.
        -- rewrite zslice_map. f_equal. unfold B at 1. rewrite zslice_sub by lia. f_equal. lia.
Qed.

Lemma calculate_ok fuel sort (extra : list R) bad : varying ys -> (forall l : list rx, ordering (zlen l) (sort l)) -> zlen xs < Z.of_nat fuel ->
  exists loc B, calculate RX fuel epoch sort (mkNFile RX (map Fin xs) false) (mkNFile RX (map Fin (ys ++ extra)) bad) m r = Ok (mkFound RX loc (Fin B) (Z.max (zlen xs) (m - 1))) /\
    good (Z.max 0 (zlen xs - m + 1)) B loc.
Proof.
  intros V Hs Hf. unfold calculate. destruct (prepare_ok sort ys extra bad r ltac:(lia) Hr V Hs) as (qy & x & E & Hq). change (num RX) with rx in *. rewrite E. cbn [bind].
  assert (Lz : forall k, 0 <= k -> zlen (zrepeat (Fin 0) k) = k) by (intros; unfold zlen, zrepeat; rewrite repeat_length; lia).
  apply (chunks_ok qy Hq) with (bb := IZR (10 ^ 20)); auto; [lia|lia|now apply Lz; lia| | |].
  - apply Forall_forall. intros y Hy. apply repeat_spec in Hy. subst. now eexists.
  - repeat split; cbn; apply Lz; lia.
  - split; [|generalize (IZR_le 0 (10 ^ 20) ltac:(lia)); lra]. cbn [b_loc]. split; [intros; lia|]. left. auto.
Qed.

(** A data file with something that is not a number: the search never ends. *)
Definition some_best (K : Z) (b : R) (loc : Z) : Prop := (0 <= b <= IZR (10 ^ 20))%R.
Lemma chunks_forever qy : ready (znormal ys) r qy -> forall fuel it (f : list R) x (buffer : list R) (t : list rx) (w : scratch RX) (b : best RX) bb,
  0 <= it -> (0 < it -> zlen buffer = epoch) -> zlen t = 2 * m -> Forall dat_rx t -> sized m w -> b_bsf _ b = Fin bb -> some_best 0 bb 0 ->
  chunks RX fuel epoch qy m r it (mkNFile RX (map Fin f) true) (Some (Fin x)) (map Fin buffer) t w b = NoFuel.
Proof.
  intros Hq. induction fuel as [|fuel IH]; intros it f x buffer t w b bb Hit Hbuf Lt Dt Sw Eb HP; auto. cbn [chunks].
  assert (Hhead : exists hd f' y, (if it =? 0 then read_n RX (Z.to_nat (m - 1)) (mkNFile RX (map Fin f) true) (Some (Fin x)) else Ok (zslice (map Fin buffer) (epoch - m + 1) (m - 1), mkNFile RX (map Fin f) true, Some (Fin x))) = Ok (map Fin hd, mkNFile RX (map Fin f') true, Some (Fin y)) /\ zlen hd = m - 1).
  { destruct (Z.eqb_spec it 0).
    - destruct (read_n_bad (Z.to_nat (m - 1)) f x) as (l & y & f' & E & L). exists l, f', y. split; auto. unfold zlen at 1. rewrite L. lia.
    - exists (zslice buffer (epoch - m + 1) (m - 1)), f, x. rewrite zslice_map. split; auto. apply TsProofs.zslice_len; lia. }
  destruct Hhead as (hd & f' & y & E1 & Lhd). change (num RX) with rx in *. rewrite E1. cbn [bind]. clear E1. rewrite zlen_map. destruct (Z.ltb_spec epoch (zlen hd)); [lia|].
  destruct (read_n_bad (Z.to_nat (epoch - (m - 1))) f' y) as (tl & z & f'' & E2 & L2). change (num RX) with rx in *. rewrite E2. cbn [bind]. rewrite zlen_map.
  assert (Ltl : zlen tl = epoch - (m - 1)) by (unfold zlen at 1; rewrite L2; lia). destruct (Z.eqb_spec (zlen tl) 0); [lia|]. rewrite <- map_app.
  assert (LB : zlen (hd ++ tl) = epoch) by (rewrite zlen_app; lia).
  destruct (ready_chunk (hd ++ tl) qy (it * (epoch - m + 1)) some_best t w b bb Hq) as (t' & w' & b' & bb' & E & Lt' & Dt' & Sw' & Eb' & HP'); auto.
  { lia. } { intros I b0 loc _ _ Hb. unfold some_best in *. split; auto. intros. split; auto. lra. }
  change (num RX) with rx in *. rewrite E. cbn [bind]. destruct (Z.ltb_spec (m - 1 + zlen tl) epoch); [lia|]. apply IH with (bb := bb'); auto. lia.
Qed.
Lemma calculate_forever fuel sort (extra : list R) bad : varying ys -> (forall l : list rx, ordering (zlen l) (sort l)) ->
  calculate RX fuel epoch sort (mkNFile RX (map Fin xs) true) (mkNFile RX (map Fin (ys ++ extra)) bad) m r = NoFuel.
Proof.
  intros V Hs. unfold calculate. destruct (prepare_ok sort ys extra bad r ltac:(lia) Hr V Hs) as (qy & x & E & Hq). change (num RX) with rx in *. rewrite E. cbn [bind].
  assert (Lz : forall k, 0 <= k -> zlen (zrepeat (Fin 0) k) = k) by (intros; unfold zlen, zrepeat; rewrite repeat_length; lia).
  apply (chunks_forever qy Hq fuel 0 xs x []) with (bb := IZR (10 ^ 20)); auto; [lia|lia|now apply Lz; lia| | |].
  - apply Forall_forall. intros y Hy. apply repeat_spec in Hy. subst. now eexists.
  - repeat split; cbn; apply Lz; lia.
  - unfold some_best. generalize (IZR_le 0 (10 ^ 20) ltac:(lia)); lra.
Qed.
End All.
