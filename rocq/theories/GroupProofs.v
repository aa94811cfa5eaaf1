(** * Grouping: what [generateGroups] builds. *)
From Coq Require Import ZArith Bool Lia String Sorted Permutation List.
From Verif Require Import Outcome Num Lemire Distance TimeSeries Text Dataset Groups Laws Spec SafeDist TsProofs.
Import ListNotations.
Open Scope Z_scope.

(** A loop that walks along a list from its end. *)
Lemma walk_rule {S A} (I : list A -> S -> Prop) cond (body : S -> outcome S) : forall fuel rem s,
  I rem s -> (List.length rem <= fuel)%nat ->
  (forall t, I [] t -> cond t = Ok false) ->
  (forall rem c t, I (rem ++ [c]) t -> cond t = Ok true /\ Post (body t) (I rem)) ->
  Post (while_ fuel cond body s) (I []).
Proof.
  induction fuel as [|fuel IH]; intros rem s HI Hf H0 Hb.
  - assert (rem = []) by (destruct rem; cbn in Hf; auto; lia). subst. cbn. rewrite (H0 s HI). exact HI.
  - cbn [while_]. destruct rem as [|x rem0] eqn:E.
    + rewrite (H0 s HI). exact HI.
    + destruct (@exists_last _ rem) as (rem' & c & E'); [subst; discriminate|]. rewrite <- E in *. subst rem.
        rewrite E' in *. destruct (Hb rem' c s HI) as (-> & Hp). cbn [bind]. apply Post_bind.
        eapply Post_conseq; [exact Hp|]. intros t Ht. apply (IH rem'); auto.
        rewrite app_length in Hf. cbn in Hf. lia.
Qed.

Lemma for_rule_le {S} (I : Z -> S -> Prop) lo hi (body : Z -> S -> outcome S) s : lo <= hi -> I lo s ->
  (forall j t, lo <= j < hi -> I j t -> Post (body j t) (I (j + 1))) -> Post (for_ lo hi body s) (I hi).
Proof. intros H H0 Hb. replace (I hi) with (I (Z.max lo hi)) by (f_equal; lia). now apply for_rule. Qed.

Lemma concat_set_perm {A} (l : list (list A)) i ms c : nth_error l i = Some ms ->
  Permutation (concat (list_set l i (ms ++ [c]))) (c :: concat l).
Proof.
  revert i. induction l as [|x l IH]; intros [|i] H; cbn in *; try discriminate.
  - injection H as ->. rewrite <- app_assoc. cbn. symmetry. apply Permutation_middle.
  - rewrite (IH i H). symmetry. apply Permutation_middle.
Qed.
Lemma concat_snoc_perm {A} (l : list (list A)) c : Permutation (concat (l ++ [[c]])) (c :: concat l).
Proof. rewrite concat_app. cbn. symmetry. apply Permutation_cons_append. Qed.

Lemma NoDup_app_r {A} (l1 l2 : list A) : NoDup (l1 ++ l2) -> NoDup l2.
Proof. induction l1 as [|x l1 IH]; cbn; auto. intros H. inversion H; auto. Qed.
Lemma NoDup_app_l {A} (l1 l2 : list A) : NoDup (l1 ++ l2) -> NoDup l1.
Proof.
  induction l1 as [|x l1 IH]; cbn; [constructor|]. intros H. inversion H as [|? ? Hx Hd]; subst.
  constructor; auto. intros Hi. apply Hx, in_or_app. now left.
Qed.

Lemma zset_ex {A} (l : list A) i v : 0 <= i < zlen l -> exists l', zset l i v = Ok l'.
Proof. intros H. rewrite (zset_Ok _ _ _ H). eauto. Qed.
Lemma zget_in {A} (l : list A) i x : zget l i = Ok x -> In x l.
Proof. intros H. apply zget_inv in H as (_ & H). eapply nth_error_In; eauto. Qed.
Lemma in_zget {A} (l : list A) x : In x l -> exists i, 0 <= i < zlen l /\ zget l i = Ok x.
Proof.
  intros H. apply In_nth_error in H as (n & H). exists (Z.of_nat n).
  assert (n < List.length l)%nat by (apply nth_error_Some; congruence).
  split; [unfold zlen; lia|]. unfold zget. destruct (Z.ltb_spec (Z.of_nat n) 0); [lia|].
  now rewrite Nat2Z.id, H.
Qed.
Lemma zget_concat {A} (l : list (list A)) i ms x : zget l i = Ok ms -> In x ms -> In x (concat l).
Proof. intros H1 H2. apply in_concat. exists ms. split; auto. eapply zget_in; eauto. Qed.

Section GroupProofs.
Context (N : NumOps) (dat pos : num N -> Prop).
Local Notation T := (num N).
Local Notation lt := (Laws.lt N).
Local Notation le := (Laws.le N).

(** The dataset. *)
Context (h : heap N) (s : tset) (b : nat) (data : list T).
Hypothesis Hbuf : set_buf s = Some b.
Hypothesis Hheap : heap_get N h b = Ok data.
(** Used only where stated: lawful arithmetic and data. *)
Definition lawful : Prop := CostLaws N dat pos /\ Forall dat data.
Hypothesis Hlen : set_len s <= 2 ^ 30.
Hypothesis Hcnt : 0 <= set_count s.
Hypothesis Hsize : set_count s * set_len s <= zlen data.

(** One length. *)
Context (L : Z).
Hypothesis HL : 1 <= L <= set_len s.
Local Notation sub := (set_len s - L + 1).

(** Coordinates (series index, start) of the subsequences of length L, their values. *)
Definition valid (c : coord) : Prop := 0 <= fst c < set_count s /\ 0 <= snd c /\ snd c + L <= set_len s.
Definition vals (c : coord) : list T := zslice data (fst c * set_len s + snd c) L.
Definition view (c : coord) : ts N := mkTS (View b (fst c * set_len s)) (fst c) (snd c) (snd c + L) L None.
Definition cpos (c : coord) : Z := fst c * sub + snd c.

Lemma in_slice {A} (l : list A) st k x : In x (zslice l st k) -> In x l.
Proof.
  unfold zslice. intros H.
  rewrite <- (firstn_skipn (Z.to_nat st) l). apply in_or_app. right.
  rewrite <- (firstn_skipn (Z.to_nat k)). apply in_or_app. now left.
Qed.
Lemma valid_range c : valid c -> 0 <= fst c * set_len s + snd c /\ fst c * set_len s + snd c + L <= zlen data.
Proof. intros (A & B & C). nia. Qed.
Lemma vals_len c : valid c -> zlen (vals c) = L.
Proof. intros V. destruct (valid_range c V). apply zslice_len; lia. Qed.
Lemma vals_dat c : lawful -> Forall dat (vals c).
Proof. intros (CL & Hdat). apply Forall_forall. intros x Hx. rewrite Forall_forall in Hdat. apply Hdat. eapply in_slice; eauto. Qed.
Lemma get_view c : valid c -> getTimeSeries N s (fst c) (snd c) (snd c + L) = Ok (view c).
Proof.
  intros (A & B & C). unfold getTimeSeries, view. rewrite Hbuf.
  destruct (Z.ltb_spec (fst c) 0); [lia|]. destruct (Z.leb_spec (set_count s) (fst c)); [lia|].
  destruct (Z.ltb_spec (snd c) 0); [lia|]. cbn [orb andb].
  destruct (Z.leb_spec (snd c + L) (snd c)); [lia|]. destruct (Z.ltb_spec (set_len s) (snd c + L)); [lia|].
  cbn [orb]. f_equal. f_equal. lia.
Qed.
Lemma read_view c : valid c -> ts_read N h (view c) = Ok (vals c).
Proof.
  intros V. destruct (valid_range c V). unfold ts_read, view. cbn [ts_src ts_start ts_len]. rewrite Hheap. cbn [bind].
  unfold window. destruct (Z.leb_spec L 0); [lia|].
  destruct (Z.ltb_spec (fst c * set_len s + snd c) 0); [lia|].
  destruct (Z.ltb_spec (zlen data) (fst c * set_len s + snd c + L)); [lia|]. reflexivity.
Qed.
Lemma klen_L : klen L.
Proof. unfold klen. lia. Qed.
Lemma cpos_range c : valid c -> 0 <= cpos c < set_count s * sub.
Proof. intros (A & B & C). unfold cpos. nia. Qed.
Lemma cpos_inj c c' : valid c -> valid c' -> cpos c = cpos c' -> c = c'.
Proof.
  intros (A & B & C) (A' & B' & C') E. unfold cpos in E. destruct c as (i, j), c' as (i', j'); cbn in *.
  assert (i = i').
  { assert ((i - i') * sub = j' - j) by lia. assert (- sub < j' - j < sub) by lia.
    destruct (Z.lt_trichotomy i i') as [X|[X|X]]; auto; nia. }
  subst. f_equal. lia.
Qed.

(** Distance between two subsequences: normalised Euclidean, without dropout. *)
Definition V (c c' : coord) : T := euc_norm N (sum_sq N (vals c) (vals c')) L.
Lemma V_pos c c' : lawful -> pos (V c c').
Proof.
  intros LW. pose proof LW as (CL & _). apply (c_norm_pos _ _ _ CL); [exact klen_L|]. apply (sum_sq_pos N _ _ CL); now apply vals_dat.
Qed.
Lemma V_sym c c' : lawful -> V c c' = V c' c.
Proof. intros LW. pose proof LW as (CL & _). unfold V. f_equal. apply (sum_sq_sym N _ _ CL); now apply vals_dat. Qed.
Lemma V_self c : lawful -> V c c = nzero N.
Proof.
  intros LW. pose proof LW as (CL & _).
  unfold V. rewrite (sum_sq_self N _ _ CL) by now apply vals_dat. apply (c_norm_0 _ _ _ CL). exact klen_L.
Qed.
(** Any numbers at all: the distance is defined; the value if it is not dropped. *)
Lemma pairwise_any x y d : zlen x = zlen y -> exists w, pairwiseDistance N x y d = Ok w.
Proof.
  intros He. unfold pairwiseDistance. rewrite <- He, Z.eqb_refl. cbn [negb].
  assert (P : Post (forb 0 (zlen x) (pairwise_step N x y (euc_inorm N d (Z.max (zlen x) (zlen x)))) (nzero N, false)) (fun _ => True)).
  { eapply Post_conseq; [apply (forb_rule (fun _ _ => True) (fun _ => True)); auto|auto].
    intros j (tot & dr) Hj _. unfold pairwise_step, ts_at.
    destruct (Z.ltb_spec j 0); [lia|]. destruct (Z.leb_spec (zlen x) j); [lia|]. destruct (Z.leb_spec (zlen y) j); [lia|]. cbn [orb].
    destruct (zget_Ok x j) as (xj & ->); [lia|]. destruct (zget_Ok y j) as (yj & ->); [lia|]. cbn [bind].
    match goal with |- context [if ?c then _ else _] => destruct c end; exact I. }
  destruct (Post_inv _ _ P) as ((tot & dr) & -> & _). cbn [bind]. eauto.
Qed.
Lemma V_pairwise c c' : lawful -> valid c -> valid c' -> pairwiseDistance N (vals c) (vals c') (ninf N) = Ok (V c c').
Proof.
  intros LW Hc Hc'. pose proof LW as (CL & _). pose proof klen_L as K. destruct (pairwise_spec N _ _ CL (vals c) (vals c') (ninf N)) as (w & -> & Hw).
  - now apply vals_dat.
  - now apply vals_dat.
  - rewrite vals_len; auto; lia.
  - now rewrite !vals_len.
  - now rewrite vals_len.
  - rewrite vals_len by auto. rewrite (c_inorm_inf _ _ _ CL) by auto. apply (c_pos_inf _ _ _ CL).
  - rewrite vals_len in Hw by auto. rewrite (c_inorm_inf _ _ _ CL) in Hw by auto. destruct Hw as [(-> & _)|(_ & Hl)]; auto.
    exfalso. eapply lt_not_le; [exact Hl|]. apply (c_le_inf _ _ _ CL). apply (sum_sq_pos N _ _ CL); now apply vals_dat.
Qed.

(** Processing order: by start, then by series index. *)
Definition before (x y : coord) : Prop := snd x < snd y \/ (snd x = snd y /\ fst x < fst y).
Lemma before_irrefl x : ~ before x x.
Proof. unfold before. lia. Qed.
Lemma before_trans x y z : before x y -> before y z -> before x z.
Proof. unfold before. lia. Qed.

(** Links of the members of a group, in insertion order. *)
Fixpoint chain (m : list membership) (gi : Z) (prev : coord) (ms : list coord) : Prop :=
  match ms with
  | [] => True
  | c :: ms' => zget m (cpos c) = Ok (mkMem prev (Some gi)) /\ chain m gi c ms'
  end.
Lemma chain_snoc m gi ms : forall prev c, chain m gi prev (ms ++ [c]) <->
  chain m gi prev ms /\ zget m (cpos c) = Ok (mkMem (last ms prev) (Some gi)).
Proof.
  induction ms as [|x ms IH]; intros prev c; cbn [app chain].
  - cbn. tauto.
  - rewrite IH. replace (last (x :: ms) prev) with (last ms x); [tauto|].
    destruct ms as [|y ms]; auto. cbn [last]. clear. revert y. induction ms as [|z ms IH]; auto. intros y. cbn [last] in *. apply IH.
Qed.
Lemma chain_set m m' gi p v ms : forall prev, zset m p v = Ok m' -> (forall c, In c ms -> cpos c <> p) ->
  chain m gi prev ms -> chain m' gi prev ms.
Proof.
  induction ms as [|x ms IH]; intros prev E Hn; cbn [chain]; auto. intros (A & B). split.
  - rewrite (zget_zset_neq _ _ _ _ _ E); auto. specialize (Hn x (or_introl eq_refl)). lia.
  - apply IH; auto. intros c Hc. apply Hn. now right.
Qed.

(** A group with members [ms]. *)
Definition grp_ok (m : list membership) (gi : Z) (g : group N) (ms : list coord) : Prop :=
  g_index N g = gi /\ g_length N g = L /\ g_sub N g = sub /\ g_count N g = zlen ms /\ ms <> [] /\
  g_last N g = last ms (-1, -1) /\ same_ts N (g_centroid N g) (view (hd (0, 0) ms)) /\
  cache_ok N h (g_centroid N g) /\ chain m gi (-1, -1) ms.

(** A group space whose groups have the members [gm]. *)
Definition ls_ok (ls : lspace N) (gm : list (list coord)) : Prop :=
  ls_length N ls = L /\ ls_sub N ls = sub /\ zlen (ls_map N ls) = set_count s * sub /\
  zlen (ls_groups N ls) = zlen gm /\
  (forall i g ms, zget (ls_groups N ls) i = Ok g -> zget gm i = Ok ms -> grp_ok (ls_map N ls) i g ms) /\
  NoDup (concat gm) /\ (forall c, In c (concat gm) -> valid c).

(** The same without the representatives: only the members and their links. *)
Definition grp_links (m : list membership) (gi : Z) (g : group N) (ms : list coord) : Prop :=
  g_index N g = gi /\ g_length N g = L /\ g_sub N g = sub /\ g_count N g = zlen ms /\
  g_last N g = last ms (-1, -1) /\ chain m gi (-1, -1) ms.
Definition links (ls : lspace N) (gm : list (list coord)) : Prop :=
  ls_length N ls = L /\ ls_sub N ls = sub /\ zlen (ls_map N ls) = set_count s * sub /\
  zlen (ls_groups N ls) = zlen gm /\
  (forall i g ms, zget (ls_groups N ls) i = Ok g -> zget gm i = Ok ms -> grp_links (ls_map N ls) i g ms) /\
  NoDup (concat gm) /\ (forall c, In c (concat gm) -> valid c).
Lemma ls_links ls gm : ls_ok ls gm -> links ls gm.
Proof.
  intros (H1 & H2 & H3 & H4 & H5 & H6). do 4 (split; [assumption|]). split; auto. intros i g ms Hg Hm.
  destruct (H5 i g ms Hg Hm) as (G1 & G2 & G3 & G4 & G5 & G6 & _ & _ & G9). now repeat (split; [assumption|]).
Qed.
Lemma ls_get ls gm i ms : ls_ok ls gm -> zget gm i = Ok ms ->
  exists g, zget (ls_groups N ls) i = Ok g /\ grp_ok (ls_map N ls) i g ms.
Proof.
  intros (_ & _ & _ & E & H & _) Hi. destruct (zget_inv _ _ _ Hi) as (R & _).
  destruct (zget_Ok (ls_groups N ls) i) as (g & Hg); [lia|]. eauto.
Qed.
Lemma links_get ls gm i ms : links ls gm -> zget gm i = Ok ms ->
  exists g, zget (ls_groups N ls) i = Ok g /\ grp_links (ls_map N ls) i g ms.
Proof.
  intros (_ & _ & _ & E & H & _) Hi. destruct (zget_inv _ _ _ Hi) as (R & _).
  destruct (zget_Ok (ls_groups N ls) i) as (g & Hg); [lia|]. eauto.
Qed.
Lemma links_members_valid ls gm i ms : links ls gm -> zget gm i = Ok ms -> forall c, In c ms -> valid c.
Proof. intros (_ & _ & _ & _ & _ & _ & H) Hi c Hc. apply H. eapply zget_concat; eauto. Qed.
Lemma ls_members_valid ls gm i ms : ls_ok ls gm -> zget gm i = Ok ms -> forall c, In c ms -> valid c.
Proof. intros H. apply links_members_valid with ls. now apply ls_links. Qed.
Lemma hd_in {A} (d : A) l : l <> [] -> In (hd d l) l.
Proof. destruct l; [congruence|now left]. Qed.
Lemma NoDup_part {A} (l : list (list A)) i ms : NoDup (concat l) -> zget l i = Ok ms -> NoDup ms.
Proof.
  intros H Hi. apply zget_inv in Hi as (_ & Hi). apply nth_error_split in Hi as (l1 & l2 & -> & _).
  rewrite concat_app in H. cbn in H. apply NoDup_app_r in H. now apply NoDup_app_l in H.
Qed.
Lemma links_fuel ls gm i ms : links ls gm -> zget gm i = Ok ms -> (List.length ms <= walk_fuel (ls_map N ls))%nat.
Proof.
  intros H Hi. pose proof (links_members_valid _ _ _ _ H Hi) as Hv. destruct H as (_ & _ & Hm & _ & _ & Hn & _).
  pose proof (NoDup_part _ _ _ Hn Hi) as Hd. unfold walk_fuel.
  assert (D : NoDup (map cpos ms)).
  { clear Hi Hn. induction Hd as [|x ms Hx Hd IH]; [constructor|]. cbn. constructor.
    - intros Hin. apply in_map_iff in Hin as (y & E & Hy). apply Hx.
      rewrite <- (cpos_inj y x); auto; apply Hv; [now right|now left].
    - apply IH. intros c Hc. apply Hv. now right. }
  assert (I : incl (map cpos ms) (map Z.of_nat (seq 0 (List.length (ls_map N ls))))).
  { intros z Hz. apply in_map_iff in Hz as (c & <- & Hc). pose proof (cpos_range c (Hv c Hc)).
    apply in_map_iff. exists (Z.to_nat (cpos c)). split; [lia|]. apply in_seq. unfold zlen in Hm. lia. }
  pose proof (NoDup_incl_length D I) as X. rewrite !map_length, seq_length in X. lia.
Qed.

(** Walking over the members of a group. *)
Lemma walk_links {S} ls gm gi ms cond (body : S -> outcome S) (cur : S -> coord) (I : list coord -> S -> Prop) s0 :
  links ls gm -> zget gm gi = Ok ms -> 
  cur s0 = last ms (-1, -1) -> I ms s0 ->
  (forall t, cond t = Ok (negb (fst (cur t) =? -1))) ->
  (forall rem c t, (exists r2, ms = (rem ++ [c]) ++ r2) -> I (rem ++ [c]) t -> cur t = c -> valid c ->
     prev_of (ls_map N ls) sub c = Ok (last rem (-1, -1)) ->
     Post (body t) (fun t' => cur t' = last rem (-1, -1) /\ I rem t')) ->
  Post (while_ (walk_fuel (ls_map N ls)) cond body s0) (I []).
Proof.
  intros H Hi Hcur HI Hcond Hb. pose proof (links_fuel _ _ _ _ H Hi) as Hf.
  pose proof (links_members_valid _ _ _ _ H Hi) as Hv.
  destruct (links_get _ _ _ _ H Hi) as (g' & _ & (_ & _ & _ & _ & _ & Hch)).
  eapply Post_conseq.
  - apply (walk_rule (fun rem t => cur t = last rem (-1, -1) /\ I rem t /\ exists r2, ms = rem ++ r2)) with (rem := ms); auto.
    + split; auto. split; auto. exists []. now rewrite app_nil_r.
    + intros t (E & _). rewrite Hcond, E. reflexivity.
    + intros rem c t (E & HIt & r2 & Er). rewrite last_last in E.
      assert (Vc : valid c) by (apply Hv; rewrite Er; apply in_or_app; left; apply in_or_app; right; now left).
      split.
      { rewrite Hcond, E. destruct Vc as (A & _). destruct (Z.eqb_spec (fst c) (-1)); [lia|reflexivity]. }
      assert (P : prev_of (ls_map N ls) sub c = Ok (last rem (-1, -1))).
      { unfold prev_of. fold (cpos c). rewrite Er in Hch.
        assert (Q : forall l1 l2 pr, chain (ls_map N ls) gi pr (l1 ++ l2) -> chain (ls_map N ls) gi pr l1).
        { clear. induction l1 as [|x l1 IH]; cbn; auto. intros l2 pr (A & B). split; auto. eapply IH; eauto. }
        apply Q in Hch. apply chain_snoc in Hch as (_ & ->). reflexivity. }
      eapply Post_conseq; [apply (Hb rem c t); eauto|]. intros t' (E1 & E2). split; auto. split; auto.
      exists ([c] ++ r2). rewrite Er, <- app_assoc. reflexivity.
  - intros t (_ & Ht & _). exact Ht.
Qed.

Lemma getMembers_links ls gm gi ms g : links ls gm -> zget gm gi = Ok ms -> zget (ls_groups N ls) gi = Ok g ->
  getMembers N s (ls_map N ls) g = Ok (map view (rev ms)).
Proof.
  intros H Hi Hg. pose proof (proj1 (proj2 (proj2 (proj2 (proj2 H)))) _ _ _ Hg Hi) as G.
  destruct G as (G1 & G2 & G3 & G4 & G6 & _).
  unfold getMembers.
  set (w := while_ _ _ _ _).
  assert (P : Post w (fun st => snd st = map view (rev ms))).
  { unfold w. eapply Post_conseq; [eapply (walk_links ls gm gi ms _ _ fst (fun rem st => exists r2, ms = rem ++ r2 /\ snd st = map view (rev r2)));
      eauto|].
    - exists []. rewrite app_nil_r. auto.
    - intros rem c (cur, acc) _ (r2 & Er & Ea) Ecur Vc Hp. cbn [fst snd] in *. subst cur acc.
      rewrite G2, G3. rewrite (get_view c Vc). cbn [bind]. rewrite Hp. cbn [bind]. apply Post_Ok. cbn [fst snd].
      split; auto. exists (c :: r2). rewrite <- app_assoc in Er. split; auto. cbn [rev]. rewrite map_app. reflexivity.
    - intros st (r2 & -> & ->). reflexivity. }
  destruct (Post_inv _ _ P) as ((cur & acc) & -> & Ea). cbn in *. now rewrite Ea.
Qed.

Lemma members_fuel ls gm i ms : ls_ok ls gm -> zget gm i = Ok ms -> (List.length ms <= walk_fuel (ls_map N ls))%nat.
Proof. intros H. apply links_fuel. now apply ls_links. Qed.
Lemma walk_members {S} ls gm gi ms cond (body : S -> outcome S) (cur : S -> coord) (I : list coord -> S -> Prop) s0 :
  ls_ok ls gm -> zget gm gi = Ok ms -> 
  cur s0 = last ms (-1, -1) -> I ms s0 ->
  (forall t, cond t = Ok (negb (fst (cur t) =? -1))) ->
  (forall rem c t, (exists r2, ms = (rem ++ [c]) ++ r2) -> I (rem ++ [c]) t -> cur t = c -> valid c ->
     prev_of (ls_map N ls) sub c = Ok (last rem (-1, -1)) ->
     Post (body t) (fun t' => cur t' = last rem (-1, -1) /\ I rem t')) ->
  Post (while_ (walk_fuel (ls_map N ls)) cond body s0) (I []).
Proof. intros H. apply (walk_links ls gm gi ms). now apply ls_links. Qed.
Lemma getMembers_spec ls gm gi ms g : ls_ok ls gm -> zget gm gi = Ok ms -> zget (ls_groups N ls) gi = Ok g ->
  getMembers N s (ls_map N ls) g = Ok (map view (rev ms)).
Proof. intros H. apply getMembers_links. now apply ls_links. Qed.

(** ** The nearest representative. *)
Definition rep (gm : list (list coord)) (i : Z) : coord :=
  match zget gm i with Ok ms => hd (0, 0) ms | _ => (0, 0) end.

Lemma rep_valid ls gm i : ls_ok ls gm -> 0 <= i < zlen gm -> valid (rep gm i) /\ In (rep gm i) (concat gm).
Proof.
  intros H Hi. destruct (zget_Ok gm i Hi) as (ms & E). unfold rep. rewrite E.
  destruct (ls_get _ _ _ _ H E) as (g & _ & (_ & _ & _ & _ & Hne & _)).
  split; [eapply ls_members_valid; eauto|eapply zget_concat; eauto]; now apply hd_in.
Qed.

Definition near_ok (gm : list (list coord)) (c : coord) (n : Z) (r : T * option Z) : Prop :=
  match snd r with
  | None => fst r = ninf N
  | Some i => 0 <= i < n /\ (lawful -> fst r = V (rep gm i) c /\ lt (fst r) (ninf N))
  end /\
  (lawful -> pos (fst r)) /\
  (lawful -> ExactLaws N dat pos -> forall k, 0 <= k < n ->
     le (fst r) (V (rep gm k) c) /\ forall i, snd r = Some i -> k < i -> lt (fst r) (V (rep gm k) c)).

Lemma nearest_spec ratio ls gm c : ls_ok ls gm -> valid c ->
  Post (nearest N DPairwise h ratio (ls_groups N ls) (view c)) (near_ok gm c (zlen gm)).
Proof.
  intros H Hc. pose proof klen_L as K. unfold nearest.
  assert (E : zlen (ls_groups N ls) = zlen gm) by apply H. rewrite E.
  apply (for_rule_le (near_ok gm c)); [apply zlen_nonneg| |].
  { split; [reflexivity|]. split; [intros (CL & _); apply (c_pos_inf _ _ _ CL)|]. intros _ _ k Hk. lia. }
  intros j (best & bi) Hj (Hbi & Pb & Hex). cbn [fst snd] in *.
  destruct (zget_Ok gm j Hj) as (ms & Ems). destruct (ls_get _ _ _ _ H Ems) as (g & Eg & G).
  destruct (rep_valid _ _ _ H Hj) as (Vr & _).
  unfold nearest_step. rewrite Eg. cbn [bind]. unfold dist_ts.
  destruct G as (_ & _ & _ & _ & _ & _ & Sc & _).
  assert (Er : rep gm j = hd (0, 0) ms) by (unfold rep; now rewrite Ems).
  rewrite (same_read N h _ _ Sc). rewrite <- Er. rewrite (read_view _ Vr), (read_view _ Hc). cbn [bind run_dist].
  destruct (pairwise_any (vals (rep gm j)) (vals c) best) as (w & Ew0); [now rewrite !vals_len|].
  rewrite Ew0. cbn [bind].
  assert (Hw : lawful -> (w = V (rep gm j) c /\ le (sum_sq N (vals (rep gm j)) (vals c)) (euc_inorm N best L)) \/
     (w = ninf N /\ lt (euc_inorm N best L) (sum_sq N (vals (rep gm j)) (vals c)))).
  { intros LW. pose proof LW as (CL & _).
    destruct (pairwise_spec N _ _ CL (vals (rep gm j)) (vals c) best) as (w' & Ew' & Hw');
      try (now apply vals_dat); try (rewrite vals_len by auto); auto; [lia|now rewrite vals_len|
      apply (c_inorm_pos _ _ _ CL); auto|].
    rewrite Ew0 in Ew'. injection Ew' as <-. rewrite vals_len in Hw' by auto. exact Hw'. }
  destruct (nltb N w best) eqn:Ew; apply Post_Ok; unfold near_ok; cbn [fst snd].
  - change (lt w best) in Ew.
    assert (HV : lawful -> w = V (rep gm j) c).
    { intros LW. pose proof LW as (CL & _). destruct (Hw LW) as [(-> & _)|(-> & _)]; auto.
      exfalso. eapply lt_not_le; [exact Ew|]. apply (c_le_inf _ _ _ CL); auto. }
    assert (PV : lawful -> pos w) by (intros LW; rewrite (HV LW); now apply V_pos).
    split; [split; [lia|]|].
    { intros LW. pose proof LW as (CL & _). split; auto.
      eapply (lt_le_trans N pos (c_pos_ord _ _ _ CL));
        [auto|exact (Pb LW)|apply (c_pos_inf _ _ _ CL)|exact Ew|apply (c_le_inf _ _ _ CL); auto]. }
    split; auto. intros LW EX k Hk. pose proof LW as (CL & _). pose proof (c_pos_ord _ _ _ CL) as PO.
    destruct (Z.eq_dec k j) as [->|Hkj].
    + split; [rewrite <- (HV LW); apply (le_refl N pos PO); auto|]. intros i Hi. injection Hi as <-. lia.
    + assert (Hl : lt w (V (rep gm k) c)).
      { eapply (lt_le_trans N pos PO); [auto|exact (Pb LW)|now apply V_pos|exact Ew|]. apply Hex; auto. lia. }
      split; auto. apply (ord_asym _ _ PO); auto. now apply V_pos.
  - split; [destruct bi; auto; destruct Hbi as (? & ?); split; auto; lia|]. split; auto.
    intros LW EX k Hk. pose proof LW as (CL & _). pose proof (c_pos_ord _ _ _ CL) as PO. destruct (Z.eq_dec k j) as [->|Hkj].
    + split.
      * destruct (Hw LW) as [(<- & _)|(_ & Hl)]; [exact Ew|].
        unfold Laws.lt in Hl. rewrite (e_norm _ _ _ EX) in Hl; auto; [|apply (sum_sq_pos N _ _ CL); now apply vals_dat].
        fold (V (rep gm j) c) in Hl. apply (ord_asym _ _ PO); auto. now apply V_pos.
      * intros i ->. destruct Hbi as (? & _). lia.
    + apply Hex; auto. lia.
Qed.

(** ** Inserting one subsequence. *)
Definition hord (half : T) : Prop := pos half \/ forall x, pos x -> lt half x.
Record rules (half : T) (gm : list (list coord)) : Prop := {
  r_radius : lawful -> forall i ms c, zget gm i = Ok ms -> In c ms -> c = hd (0, 0) ms \/ le (V (hd (0, 0) ms) c) half;
  r_sorted : forall i ms, zget gm i = Ok ms -> StronglySorted before ms;
  r_heads : forall i j, 0 <= i < j -> j < zlen gm -> before (rep gm i) (rep gm j);
  r_nearest : lawful -> ExactLaws N dat pos -> forall i ms c j, zget gm i = Ok ms -> In c ms -> c <> hd (0, 0) ms ->
    0 <= j < zlen gm -> before (rep gm j) c ->
    le (V (rep gm i) c) (V (rep gm j) c) /\ (j < i -> lt (V (rep gm i) c) (V (rep gm j) c));
  r_apart : lawful -> ExactLaws N dat pos -> hord half -> forall i j, 0 <= j < i -> i < zlen gm -> lt half (V (rep gm j) (rep gm i))
}.

Lemma hd_app {A} (d : A) l x : l <> [] -> hd d (l ++ [x]) = hd d l.
Proof. destruct l; [congruence|reflexivity]. Qed.
Lemma sorted_snoc {A} (R : A -> A -> Prop) l x : StronglySorted R l -> Forall (fun y => R y x) l -> StronglySorted R (l ++ [x]).
Proof.
  induction 1 as [|y l Hs IH Hf]; intros H; cbn.
  - constructor; constructor.
  - inversion H; subst. constructor; auto. apply Forall_app. split; auto.
Qed.

Lemma rep_app gm ms i : 0 <= i < zlen gm -> rep (gm ++ [ms]) i = rep gm i.
Proof. intros Hi. unfold rep. rewrite zget_app_l; auto. lia. Qed.
Lemma rep_last gm ms : rep (gm ++ [ms]) (zlen gm) = hd (0, 0) ms.
Proof. unfold rep. rewrite zget_app_r by lia. now rewrite Z.sub_diag. Qed.
Lemma rep_set gm i ms c gm' j : zget gm i = Ok ms -> ms <> [] -> zset gm i (ms ++ [c]) = Ok gm' -> rep gm' j = rep gm j.
Proof.
  intros Hi Hne E. unfold rep. destruct (Z.eq_dec i j) as [<-|Hij].
  - rewrite (zget_zset_eq _ _ _ _ E), Hi. now apply hd_app.
  - now rewrite (zget_zset_neq _ _ _ _ _ E).
Qed.
Lemma zget_snoc_inv {A} (l : list A) y i x : zget (l ++ [y]) i = Ok x ->
  (0 <= i < zlen l /\ zget l i = Ok x) \/ (i = zlen l /\ x = y).
Proof.
  intros H. destruct (zget_inv _ _ _ H) as (R & _). rewrite zlen_app in R; change (zlen [y]) with 1 in R.
  destruct (Z.ltb_spec i (zlen l)).
  - left. rewrite zget_app_l in H by lia. split; auto. lia.
  - right. assert (i = zlen l) as -> by lia. rewrite zget_app_r, Z.sub_diag in H by lia. split; auto. now injection H.
Qed.
Lemma zset_snoc {A} (l : list A) x y : zset (l ++ [x]) (zlen l) y = Ok (l ++ [y]).
Proof.
  unfold zset, zlen. destruct (Z.ltb_spec (Z.of_nat (List.length l)) 0); [lia|].
  rewrite app_length. cbn [List.length].
  destruct (Z.leb_spec (Z.of_nat (List.length l + 1)) (Z.of_nat (List.length l))); [lia|]. cbn [orb].
  f_equal. rewrite Nat2Z.id. clear. induction l as [|z l IH]; cbn; [reflexivity|]. now rewrite IH.
Qed.

Lemma rules_new half gm c : rules half gm -> Forall (fun x => before x c) (concat gm) ->
  (forall ms, In ms gm -> ms <> []) ->
  (lawful -> ExactLaws N dat pos -> hord half -> forall j, 0 <= j < zlen gm -> lt half (V (rep gm j) c)) ->
  rules half (gm ++ [[c]]).
Proof.
  intros R Hb Hne Hap.
  assert (HL' : zlen (gm ++ [[c]]) = zlen gm + 1) by now rewrite zlen_app, zlen_cons, zlen_nil.
  assert (Hrep : forall i, 0 <= i < zlen gm -> In (rep gm i) (concat gm)).
  { intros i Hi. destruct (zget_Ok gm i Hi) as (ms & E). unfold rep. rewrite E.
    eapply zget_concat; eauto. apply hd_in, Hne. eapply zget_in; eauto. }
  rewrite Forall_forall in Hb.
  constructor.
  - intros LW i ms x Hi Hx. apply zget_snoc_inv in Hi as [(_ & Hi)|(_ & ->)].
    + eapply r_radius; eauto.
    + destruct Hx as [<-|[]]. now left.
  - intros i ms Hi. apply zget_snoc_inv in Hi as [(_ & Hi)|(_ & ->)].
    + eapply r_sorted; eauto.
    + repeat constructor.
  - intros i j Hi Hj. rewrite HL' in Hj. rewrite rep_app by lia. destruct (Z.eq_dec j (zlen gm)) as [->|].
    + rewrite rep_last. cbn. apply Hb, Hrep. lia.
    + rewrite rep_app by lia. apply (r_heads half gm R); lia.
  - intros LW EX i ms x j Hi Hx Hnx Hj Hbj. rewrite HL' in Hj. apply zget_snoc_inv in Hi as [(Hir & Hi)|(_ & ->)].
    + rewrite (rep_app _ _ i) by lia. destruct (Z.eq_dec j (zlen gm)) as [->|].
      * rewrite rep_last in Hbj. cbn in Hbj. exfalso. apply (before_irrefl x). eapply before_trans; [|exact Hbj].
        apply Hb. eapply zget_concat; eauto.
      * rewrite rep_app in * by lia. eapply r_nearest; eauto. lia.
    + destruct Hx as [<-|[]]. cbn in Hnx. congruence.
  - intros LW EX HO i j Hj Hi. rewrite HL' in Hi. rewrite (rep_app _ _ j) by lia. destruct (Z.eq_dec i (zlen gm)) as [->|].
    + rewrite rep_last. cbn. apply Hap; auto; lia.
    + rewrite rep_app by lia. apply (r_apart half gm R); auto. lia.
Qed.

Lemma rules_join half gm gm' c i ms : rules half gm -> Forall (fun x => before x c) (concat gm) ->
  zget gm i = Ok ms -> ms <> [] -> zset gm i (ms ++ [c]) = Ok gm' ->
  (lawful -> le (V (rep gm i) c) half) ->
  (lawful -> ExactLaws N dat pos -> forall j, 0 <= j < zlen gm ->
     le (V (rep gm i) c) (V (rep gm j) c) /\ (j < i -> lt (V (rep gm i) c) (V (rep gm j) c))) ->
  rules half gm'.
Proof.
  intros R Hb Hi Hne E Hr Hn. pose proof (zset_len _ _ _ _ E) as HL'.
  assert (HR : forall j, rep gm' j = rep gm j) by (intros; eapply rep_set; eauto).
  assert (Hc : forall k ms', zget gm' k = Ok ms' -> (k = i /\ ms' = ms ++ [c]) \/ zget gm k = Ok ms').
  { intros k ms' Hk. destruct (Z.eq_dec i k) as [<-|].
    - rewrite (zget_zset_eq _ _ _ _ E) in Hk. injection Hk as <-. auto.
    - rewrite (zget_zset_neq _ _ _ _ _ E) in Hk by auto. auto. }
  assert (Eh : hd (0, 0) ms = rep gm i) by (unfold rep; now rewrite Hi).
  rewrite Forall_forall in Hb.
  constructor.
  - intros LW k ms' x Hk Hx. apply Hc in Hk as [(-> & ->)|Hk].
    + rewrite hd_app by auto. apply in_app_or in Hx as [Hx|[<-|[]]].
      * eapply r_radius; eauto.
      * right. rewrite Eh. auto.
    + eapply r_radius; eauto.
  - intros k ms' Hk. apply Hc in Hk as [(-> & ->)|Hk]; [|eapply r_sorted; eauto].
    apply sorted_snoc; [eapply r_sorted; eauto|]. apply Forall_forall. intros x Hx. apply Hb. eapply zget_concat; eauto.
  - intros k j Hk Hj. rewrite !HR. apply (r_heads half gm R); lia.
  - intros LW EX k ms' x j Hk Hx Hnx Hj Hbj. rewrite HR in Hbj. rewrite !HR. rewrite HL' in Hj. apply Hc in Hk as [(-> & ->)|Hk].
    + rewrite hd_app in Hnx by auto. apply in_app_or in Hx as [Hx|[<-|[]]].
      * eapply r_nearest; eauto.
      * apply Hn; auto.
    + eapply r_nearest; eauto.
  - intros LW EX HO k j Hj Hk. rewrite !HR. apply (r_apart half gm R); auto. lia.
Qed.

Definition half_of (thr : T) : T := ndiv N thr (nofZ N 2).

Lemma insert_spec ratio thr ls gm c : lt (half_of thr) (ninf N) ->
  ls_ok ls gm -> rules (half_of thr) gm -> valid c ->
  Forall (fun x => before x c) (concat gm) ->
  Post (insert_one N DPairwise h ratio s thr (snd c) (fst c) ls)
       (fun ls' => exists gm', ls_ok ls' gm' /\ rules (half_of thr) gm' /\
          Permutation (concat gm') (c :: concat gm)).
Proof.
  intros Hinf H R Hc Hb. pose proof H as (E1 & E2 & E3 & E4 & E5 & E6 & E7).
  assert (Hnew : ~ In c (concat gm)).
  { intros Hi. rewrite Forall_forall in Hb. exact (before_irrefl c (Hb c Hi)). }
  assert (Hother : forall i ms x, zget gm i = Ok ms -> In x ms -> cpos x <> cpos c).
  { intros i ms x Hi Hx Ex. apply Hnew. rewrite <- (cpos_inj x c); auto; [eapply zget_concat; eauto|].
    apply E7. eapply zget_concat; eauto. }
  assert (Hne : forall ms, In ms gm -> ms <> []).
  { intros ms Hms. apply in_zget in Hms as (i & _ & Hi). destruct (ls_get _ _ _ _ H Hi) as (g & _ & G). apply G. }
  unfold insert_one. rewrite E1. rewrite (get_view c Hc). cbn [bind].
  eapply Post_seq; [apply (nearest_spec ratio ls gm c H Hc)|]. intros (best & bi) (Hbi & Pb & Hex). cbn [fst snd] in *.
  fold (half_of thr).
  destruct (zset_ex (ls_map N ls) (cpos c) (mkMem (-1, -1) (Some (zlen gm)))) as (m0 & Em0);
    [rewrite E3; now apply cpos_range|].
  destruct (nltb N (half_of thr) best || (zlen (ls_groups N ls) =? 0)) eqn:Ed.
  - (* new group *)
    unfold new_group, ts_new. destruct (Z.ltb_spec L 0); [lia|]. cbn [bind]. unfold setCentroid. cbn [g_length].
    rewrite (get_view c Hc). cbn [bind]. unfold init. cbn [bind].
    rewrite zget_app_r, Z.sub_diag by lia. cbn [zget Z.ltb nth_error Z.to_nat Z.compare bind].
    unfold addMember. cbn [g_sub g_last g_index g_length g_count g_centroid].
    rewrite E2. fold (cpos c). rewrite E4. rewrite Em0. cbn [bind]. rewrite <- E4. rewrite zset_snoc. cbn [bind].
    apply Post_Ok. exists (gm ++ [[c]]). 
    assert (P : Permutation (concat (gm ++ [[c]])) (c :: concat gm)) by apply concat_snoc_perm.
    split; [|split; auto].
    + unfold ls_ok. cbn [ls_length ls_sub ls_map ls_groups]. split; auto. split; auto.
      split; [now rewrite (zset_len _ _ _ _ Em0)|]. split; [rewrite !zlen_app, E4; reflexivity|]. split; [|split].
      * intros i g ms Hg Hi. apply zget_snoc_inv in Hi as [(Hr & Hi)|(-> & ->)].
        -- rewrite zget_app_l in Hg by lia. destruct (E5 _ _ _ Hg Hi) as (G1 & G2 & G3 & G4 & G5 & G6 & G7 & G8 & G9).
           repeat (split; [assumption|]). eapply chain_set; eauto.
        -- rewrite <- E4, zget_app_r, Z.sub_diag in Hg by lia. cbn in Hg. injection Hg as <-.
           unfold grp_ok. cbn [g_index g_length g_sub g_count g_centroid g_last].
           split; [exact E4|]. split; auto. split; auto. split; [reflexivity|]. split; [discriminate|].
           split; [destruct c; reflexivity|]. split; [now repeat split|]. split; [now apply cache_None|].
           cbn [chain]. split; auto. exact (zget_zset_eq _ _ _ _ Em0).
      * apply (Permutation_NoDup (Permutation_sym P)). constructor; auto.
      * intros x Hx. apply (Permutation_in _ P) in Hx as [<-|Hx]; auto.
    + apply rules_new; auto. intros LW EX Hord j Hj. destruct (Hex LW EX j Hj) as (Hl & _).
      apply orb_prop in Ed as [Ed|Ed]; [|apply Z.eqb_eq in Ed; lia].
      destruct Hord as [Ph|Ph]; [|now apply Ph, V_pos]. pose proof LW as (CL & _).
      eapply (lt_le_trans N pos (c_pos_ord _ _ _ CL)); [exact Ph|exact (Pb LW)|now apply V_pos|exact Ed|exact Hl].
  - (* existing group *)
    apply orb_false_elim in Ed as (Ed & Ed0). cbn [bind].
    destruct bi as [i|]; [|exfalso; subst best; unfold Laws.lt in Hinf; congruence].
    destruct Hbi as (Hi & Eb). cbn [init bind].
    destruct (zget_Ok gm i Hi) as (ms & Ems). destruct (ls_get _ _ _ _ H Ems) as (g & Eg & G).
    rewrite Eg. cbn [bind]. destruct G as (G1 & G2 & G3 & G4 & G5 & G6 & G7 & G8 & G9).
    unfold addMember. rewrite G3. fold (cpos c).
    destruct (zset_ex (ls_map N ls) (cpos c) (mkMem (g_last N g) (Some (g_index N g)))) as (m' & Em);
      [rewrite E3; now apply cpos_range|]. rewrite Em. cbn [bind].
    destruct (zset_ex (ls_groups N ls) i (mkGroup N (g_index N g) (fst c, snd c) (g_length N g) (g_sub N g) (g_count N g + 1) (g_centroid N g)))
      as (gs' & Egs); [lia|]. rewrite G3 in Egs. rewrite Egs. cbn [bind].
    destruct (zset_ex gm i (ms ++ [c]) Hi) as (gm' & Egm).
    apply Post_Ok. exists gm'.
    assert (P : Permutation (concat gm') (c :: concat gm)).
    { destruct (zset_inv _ _ _ _ Egm) as (_ & ->). apply concat_set_perm. now apply zget_inv in Ems. }
    split; [|split; auto].
    + unfold ls_ok. cbn [ls_length ls_sub ls_map ls_groups]. split; auto. split; auto.
      split; [now rewrite (zset_len _ _ _ _ Em)|]. split; [rewrite (zset_len _ _ _ _ Egs), (zset_len _ _ _ _ Egm); auto|]. split; [|split].
      * intros k g' ms' Hg Hk. destruct (Z.eq_dec i k) as [<-|Hik].
        -- rewrite (zget_zset_eq _ _ _ _ Egs) in Hg. injection Hg as <-. rewrite (zget_zset_eq _ _ _ _ Egm) in Hk. injection Hk as <-.
           unfold grp_ok. cbn [g_index g_length g_sub g_count g_centroid g_last].
           split; auto. split; auto. split; auto. split; [rewrite zlen_app, G4; reflexivity|].
           split; [now destruct ms|]. split; [rewrite last_last; now destruct c|]. rewrite hd_app by auto. split; auto. split; auto.
           apply chain_snoc. split; [eapply chain_set; eauto|]. rewrite (zget_zset_eq _ _ _ _ Em), G6, G1. reflexivity.
        -- rewrite (zget_zset_neq _ _ _ _ _ Egs) in Hg by auto. rewrite (zget_zset_neq _ _ _ _ _ Egm) in Hk by auto.
           destruct (E5 _ _ _ Hg Hk) as (K1 & K2 & K3 & K4 & K5 & K6 & K7 & K8 & K9).
           repeat (split; [assumption|]). eapply chain_set; eauto.
      * apply (Permutation_NoDup (Permutation_sym P)). constructor; auto.
      * intros x Hx. apply (Permutation_in _ P) in Hx as [<-|Hx]; auto.
    + eapply rules_join; eauto.
      * intros LW. destruct (Eb LW) as (<- & _). exact Ed.
      * intros LW EX j Hj. destruct (Hex LW EX j Hj) as (Hl & Hs). destruct (Eb LW) as (Eb' & _). rewrite Eb' in Hl, Hs. split; [exact Hl|]. intros Hji. apply (Hs i eq_refl Hji).
Qed.

(** ** All subsequences of one length. *)
Lemma perm_members gm' c gm (x : coord) : Permutation (concat gm') (c :: concat gm) ->
  (In x (concat gm') <-> c = x \/ In x (concat gm)).
Proof. intros P. split; intros H; [exact (Permutation_in _ P H)|exact (Permutation_in _ (Permutation_sym P) H)]. Qed.

Definition upto (cur : coord) (gm : list (list coord)) : Prop :=
  forall c, In c (concat gm) <-> valid c /\ before c cur.

Theorem generateGroups_spec ratio thr doLog ls0 : lt (half_of thr) (ninf N) ->
  (doLog = true -> 1 <= set_count s -> 5 <= sub * set_count s) ->
  new_lspace N s L = Ok ls0 ->
  Post (generateGroups N DPairwise h ratio s thr doLog ls0)
       (fun ls => exists gm, ls_ok ls gm /\ rules (half_of thr) gm /\ NoDup (concat gm) /\
          forall c, In c (concat gm) <-> valid c).
Proof.
  intros Hinf Hlog E0. unfold new_lspace in E0. destruct (Z.ltb_spec (set_count s * sub) 0) as [|Hn]; [discriminate|].
  injection E0 as <-. unfold generateGroups. cbn [ls_sub].
  set (P := fun cur (st : lspace N * Z) => exists gm, ls_ok (fst st) gm /\ rules (half_of thr) gm /\ upto cur gm).
  eapply Post_seq with (P := P (0, sub)).
  - apply (for_rule_le (fun start => P (0, start))); [lia| |].
    + exists []. split; [|split].
      * unfold ls_ok. cbn [fst ls_length ls_sub ls_map ls_groups concat]. split; auto. split; auto.
        split; [apply zlen_zrepeat; lia|]. split; [reflexivity|]. split; [|split; [constructor|intros c []]].
        intros i g ms Hg. destruct (zget_inv _ _ _ Hg) as (A & _). unfold zlen in A; cbn in A; lia.
      * constructor; try (intros i ms; intros; match goal with H : zget [] _ = _ |- _ => destruct (zget_inv _ _ _ H) as (A & _); unfold zlen in A; cbn in A; lia end);
          intros; unfold zlen in *; cbn in *; lia.
      * intros c. cbn. split; [intros []|]. intros ((A & B & C) & [D|(D & E)]); cbn in *; lia.
    + intros start st Hs HP.
      eapply Post_conseq with (Q := P (set_count s, start)).
      * apply (for_rule_le (fun idx => P (idx, start))); auto.
        intros idx (ls & counter) Hi (gm & H & R & U). cbn [fst] in *.
        unfold log_progress.
        assert (Hc : valid (idx, start)) by (unfold valid; cbn; lia).
        assert (X : (if doLog then if (sub * set_count s) ÷ 5 =? 0 then UB DivZero else Ok tt else Ok tt) = Ok tt).
        { destruct doLog; auto. specialize (Hlog eq_refl ltac:(lia)). destruct (Z.eqb_spec ((sub * set_count s) ÷ 5) 0) as [E|]; auto.
          rewrite Z.quot_div_nonneg in E by lia. assert (1 <= sub * set_count s / 5) by (apply Z.div_le_lower_bound; lia). lia. }
        rewrite X. cbn [bind].
        eapply Post_seq; [apply (insert_spec ratio thr ls gm (idx, start)); auto|].
        -- apply Forall_forall. intros x Hx. now apply U.
        -- intros ls' (gm' & H' & R' & Pm). apply Post_Ok. exists gm'. split; auto. split; auto.
           intros x. rewrite (perm_members _ _ _ x Pm). rewrite (U x). split.
           ++ intros [<-|(A & B)]; [split; auto|split; auto]; unfold before in *; cbn in *; lia.
           ++ intros (A & B). destruct x as (xi, xs). unfold before in *; cbn in *.
              destruct (Z.eq_dec xs start) as [->|]; [destruct (Z.eq_dec xi idx) as [->|]; [now left|]|]; right; split; auto; lia.
      * intros (ls & counter) (gm & H & R & U). exists gm. split; auto. split; auto. intros x. rewrite (U x).
        split; intros (A & B); split; auto; unfold before, valid in *; cbn in *; lia.
  - intros (ls & counter) (gm & H & R & U). apply Post_Ok. exists gm. split; auto. split; auto. split; [apply H|].
    intros c. rewrite (U c). split; [intros (A & _); auto|]. intros A. split; auto. unfold before, valid in *; cbn in *; lia.
Qed.
End GroupProofs.
