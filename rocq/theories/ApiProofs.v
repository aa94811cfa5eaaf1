(** * Sessions: number of datasets, identifiers, exceptions, owners of representatives. *)
From Coq Require Import ZArith Bool Lia String List Ascii Sorted.
From Verif Require Import Outcome Num Lemire Distance TimeSeries Text Dataset Groups Api.
From Verif Require Import TsProofs GroupSpec GroupProofs GlobalGroup SimProofs SessionProofs.
Import ListNotations.
Open Scope Z_scope.

(** ** Partial correctness: what holds of a value or exception if there is one. *)
Definition pc {A} (o : outcome A) (Q : A -> Prop) (E : exn -> Prop) : Prop :=
  match o with Ok a => Q a | Throw e => E e | _ => True end.
Lemma pc_bind {A B} (P : A -> Prop) (o : outcome A) (k : A -> outcome B) Q E :
  pc o P E -> (forall a, P a -> pc (k a) Q E) -> pc (bind o k) Q E.
Proof. destruct o; cbn; auto. Qed.
Lemma pc_true {A} (o : outcome A) (E : exn -> Prop) : (forall e, o <> Throw e) -> pc o (fun _ => True) E.
Proof. destruct o; cbn; auto. intros H. now destruct (H e). Qed.
Lemma pc_conseq {A} (o : outcome A) (P Q : A -> Prop) (E E' : exn -> Prop) : pc o P E ->
  (forall a, P a -> Q a) -> (forall e, E e -> E' e) -> pc o Q E'.
Proof. destruct o; cbn; auto. Qed.
Lemma pc_for {S} (I : S -> Prop) E lo hi (body : Z -> S -> outcome S) s : I s ->
  (forall i t, lo <= i < hi -> I t -> pc (body i t) I E) -> pc (for_ lo hi body s) I E.
Proof.
  unfold for_. intros HI Hb.
  assert (G : forall n i s, (i + Z.of_nat n <= Z.max lo hi)%Z -> lo <= i -> I s -> pc (loop n i body s) I E).
  { induction n as [|n IH]; intros i t Hi Hlo Ht; cbn [loop]; auto.
    eapply pc_bind; [apply Hb; [lia|auto]|]. intros u Hu. apply IH; auto; lia. }
  apply G; auto; lia.
Qed.
Lemma pc_forb {S} (I : S -> Prop) E lo hi (body : Z -> S -> outcome (ctl S)) s : I s ->
  (forall i t, lo <= i < hi -> I t -> pc (body i t) (fun c => match c with Next t' | Break t' => I t' end) E) ->
  pc (forb lo hi body s) I E.
Proof.
  unfold forb. intros HI Hb.
  assert (G : forall n i s, (i + Z.of_nat n <= Z.max lo hi)%Z -> lo <= i -> I s -> pc (loopb n i body s) I E).
  { induction n as [|n IH]; intros i t Hi Hlo Ht; cbn [loopb]; auto.
    eapply pc_bind; [apply Hb; [lia|auto]|]. intros [u|u] Hu; cbn; auto. apply IH; auto; lia. }
  apply G; auto; lia.
Qed.
Lemma pc_zget {A} (P : A -> Prop) (l : list A) i E : Forall P l -> pc (zget l i) P E.
Proof.
  intros F. unfold zget. destruct (i <? 0); cbn; auto. destruct (nth_error l (Z.to_nat i)) eqn:H; cbn; auto.
  eapply Forall_forall; eauto. eapply nth_error_In; eauto.
Qed.
Lemma Forall_list_set {A} (P : A -> Prop) l n x : Forall P l -> P x -> Forall P (list_set l n x).
Proof. intros F Hx. revert n. induction F; intros [|n]; cbn; constructor; auto. Qed.
Lemma pc_zset {A} (P : A -> Prop) (l : list A) i x E : Forall P l -> P x -> pc (zset l i x) (Forall P) E.
Proof. intros F Hx. unfold zset. destruct (_ || _); cbn; auto. now apply Forall_list_set. Qed.

Definition not_onex (e : exn) : Prop := match e with OnexExn _ => False | _ => True end.

Section ApiProofs.
Context (N : NumOps) (IO : NumIO N) (writable : string -> bool).
Local Notation T := (num N).
Local Notation st := (st N).
Local Notation check := (checkDatasetIndex N).

(** ** Grouping throws no OnexException. *)
Lemma read_len h t v : ts_read N h t = Ok v -> zlen v = Z.max 0 (ts_len t).
Proof.
  assert (W : forall l p n w, window N l p n = Ok w -> zlen w = Z.max 0 n).
  { intros l p n w. unfold window. destruct (Z.leb_spec n 0); [intros E; injection E as <-; cbn; lia|].
    destruct (Z.ltb_spec p 0); [discriminate|]. destruct (Z.ltb_spec (zlen l) (p + n)); [discriminate|]. cbn [orb].
    intros E. injection E as <-. rewrite zslice_len; lia. }
  unfold ts_read. destruct (ts_src t) as [b base|w|]; [|apply W|].
  - intros E. apply bind_Ok_inv in E as (l & _ & E). eauto.
  - destruct (Z.leb_spec (ts_len t) 0); [|discriminate]. intros E. injection E as <-. cbn. lia.
Qed.
Lemma at_nothrow (a : list T) i E : 0 <= i < zlen a -> pc (ts_at N a i) (fun _ => True) E.
Proof.
  intros H. unfold ts_at. destruct (Z.ltb_spec i 0); [lia|]. destruct (Z.leb_spec (zlen a) i); [lia|]. cbn [orb].
  destruct (zget_Ok a i H) as (x & ->). exact I.
Qed.
Lemma pairwise_nothrow (a b : list T) d E : zlen a = zlen b -> pc (pairwiseDistance N a b d) (fun _ => True) E.
Proof.
  intros H. unfold pairwiseDistance. rewrite H, Z.eqb_refl. cbn [negb].
  eapply (pc_bind (fun _ => True)); [|intros (t & dr) _; exact I].
  apply pc_forb; auto. intros i (t & dr) Hi _. unfold pairwise_step.
  eapply pc_bind; [apply at_nothrow; lia|]. intros x _. eapply pc_bind; [apply at_nothrow; lia|]. intros y _.
  cbn zeta. destruct (nltb _ _ _); cbn; auto.
Qed.

(** Where the values of a representative are. *)
Definition cent_src (P : tsrc N -> Prop) (o : option (lspace N)) : Prop :=
  match o with Some ls => Forall (fun g => P (ts_src (g_centroid N g))) (ls_groups N ls) | None => True end.
Definition set_src (s : tset) (x : tsrc N) : Prop := match x with View b _ => set_buf s = Some b | _ => True end.

Lemma get_src s ix a e t : getTimeSeries N s ix a e = Ok t -> set_src s (ts_src t).
Proof.
  unfold getTimeSeries. intros E. destruct (_ || _); [discriminate|]. destruct (_ && _).
  - injection E as <-. cbn. destruct (set_buf s) eqn:B; cbn; auto.
  - destruct (_ || _); [discriminate|]. injection E as <-. cbn. destruct (set_buf s) eqn:B; cbn; auto.
Qed.
Lemma get_len s ix a e t : 0 <= a < e -> getTimeSeries N s ix a e = Ok t -> ts_len t = e - a.
Proof.
  intros H. unfold getTimeSeries. destruct (_ || _); [discriminate|]. destruct (Z.ltb_spec a 0); [lia|]. cbn [andb].
  destruct (_ || _); [discriminate|]. intros E. now injection E as <-.
Qed.
Lemma get_ok s ix a e : 0 <= ix < set_count s -> 0 <= a < e -> e <= set_len s -> exists t, getTimeSeries N s ix a e = Ok t.
Proof.
  intros H1 H2 H3. unfold getTimeSeries. destruct (Z.ltb_spec ix 0); [lia|]. destruct (Z.leb_spec (set_count s) ix); [lia|].
  destruct (Z.ltb_spec a 0); [lia|]. cbn [orb andb]. destruct (Z.leb_spec e a); [lia|]. destruct (Z.ltb_spec (set_len s) e); [lia|].
  cbn [orb]. eauto.
Qed.

Definition gok (s : tset) (L : Z) (g : group N) : Prop :=
  g_length N g = L /\ ts_len (g_centroid N g) = L /\ set_src s (ts_src (g_centroid N g)).
Definition lok (s : tset) (L : Z) (ls : lspace N) : Prop :=
  ls_length N ls = L /\ ls_sub N ls = set_len s - L + 1 /\ Forall (gok s L) (ls_groups N ls).

Lemma insert_pc h r s thr start idx L ls : 1 <= L -> 0 <= idx < set_count s -> 0 <= start -> start + L <= set_len s -> lok s L ls ->
  pc (insert_one N DPairwise h r s thr start idx ls) (lok s L) not_onex.
Proof.
  intros HL Hi H0 Hs (E & Esub & F). unfold insert_one. rewrite E.
  destruct (get_ok s idx start (start + L)) as (q & Eq); try lia. rewrite Eq. cbn [bind].
  assert (Lq : ts_len q = L) by (apply get_len in Eq; lia).
  eapply (pc_bind (fun _ => True)).
  { unfold nearest. apply pc_for; auto. intros i (best & bi) _ _. unfold nearest_step.
    eapply pc_bind; [apply pc_zget, F|]. intros g (_ & Lg & _). eapply (pc_bind (fun _ => True)); [|intros; exact I].
    unfold dist_ts. destruct (ts_read N h (g_centroid N g)) as [v| e| |] eqn:Ev; cbn [bind pc]; auto.
    2:{ exfalso. unfold ts_read, window, heap_get in Ev. destruct (ts_src (g_centroid N g)).
        - destruct (nth_error h buf) as [[l|]|]; try discriminate. cbn in Ev. destruct (_ <=? 0); [discriminate|]. destruct (_ || _); discriminate.
        - destruct (_ <=? 0); [discriminate|]. destruct (_ || _); discriminate.
        - destruct (_ <=? 0); discriminate. }
    destruct (ts_read N h q) as [w| e| |] eqn:Ew; cbn [bind pc]; auto.
    2:{ exfalso. unfold ts_read, window, heap_get in Ew. destruct (ts_src q).
        - destruct (nth_error h buf) as [[l|]|]; try discriminate. cbn in Ew. destruct (_ <=? 0); [discriminate|]. destruct (_ || _); discriminate.
        - destruct (_ <=? 0); [discriminate|]. destruct (_ || _); discriminate.
        - destruct (_ <=? 0); discriminate. }
    cbn [run_dist]. apply pairwise_nothrow. apply read_len in Ev, Ew. rewrite Ev, Ew. now rewrite Lg, Lq. }
  intros (best & bi) _.
  eapply (pc_bind (fun x => Forall (gok s L) (fst x))).
  { destruct (_ || _); cbn [pc]; auto. cbn zeta. unfold new_group, ts_new. destruct (Z.ltb_spec L 0); [lia|]. cbn [bind].
    unfold setCentroid. cbn [g_length]. rewrite Eq. cbn [bind pc fst]. apply Forall_app. split; auto. constructor; auto.
    split; [reflexivity|]. cbn. split; [lia|]. eapply get_src; eauto. }
  intros (groups & bi2) Fg. cbn [fst] in Fg. eapply (pc_bind (fun _ => True)); [destruct bi2; cbn; auto|]. intros k _.
  eapply pc_bind; [apply pc_zget, Fg|]. intros g Hg. unfold addMember.
  eapply (pc_bind (fun mg => gok s L (snd mg))).
  { eapply (pc_bind (fun _ => True)); [unfold zset; destruct (_ || _); cbn; auto|]. intros m _. cbn. exact Hg. }
  intros (m & g') Hg'. cbn [snd] in Hg'. eapply pc_bind; [apply pc_zset; [exact Fg|exact Hg']|]. intros groups' Fg'.
  cbn. split; auto.
Qed.

Lemma group_pc h r s thr clock : pc (global_group N h r s "euclidean" thr clock)
  (fun x => Forall (cent_src (set_src s)) (gs_spaces N (fst x))) not_onex.
Proof.
  unfold global_group. change (getDistance "euclidean") with (Ok DPairwise). cbn [bind].
  unfold resize_null. destruct (Z.ltb_spec (set_len s + 1) 0); [exact I|]. cbn [bind].
  eapply (pc_bind (fun x : list (option (lspace N)) * Z => Forall (cent_src (set_src s)) (fst x))).
  - apply pc_for.
    + cbn. unfold zrepeat. apply Forall_forall. intros o Ho. apply repeat_spec in Ho. subst o. exact I.
    + intros L (sp & tot) HL Hsp. rewrite zlen_zrepeat in HL by lia. cbn [fst] in Hsp.
      eapply (pc_bind (lok s L)).
      { unfold new_lspace. destruct (_ <? 0); cbn; auto. repeat split; cbn; auto. }
      intros ls Hls. eapply (pc_bind (lok s L)).
      { unfold generateGroups. eapply (pc_bind (fun x : lspace N * Z => lok s L (fst x))); [|intros (l & c) Hl; exact Hl].
        apply pc_for; auto. intros start x Hst Hx. apply pc_for; auto. intros idx (l & c) Hidx Hl. cbn [fst] in Hl.
        eapply (pc_bind (fun _ => True)).
        { unfold log_progress. destruct (clock L); cbn; auto. destruct (_ =? 0); cbn; auto. }
        intros _ _. eapply pc_bind; [apply insert_pc; eauto; destruct Hls as (_ & Es & _); lia|]. intros l' Hl'. exact Hl'. }
      intros ls' Hls'. eapply pc_bind; [apply pc_zset; [exact Hsp|]|].
      * cbn. destruct Hls' as (_ & _ & F). eapply Forall_impl; [|exact F]. intros g (_ & _ & G). exact G.
      * intros sp' Hsp'. exact Hsp'.
  - intros (sp & n) H1. exact H1.
Qed.

(** ** Exceptions. *)
Theorem step_exn σ o σ' e : step N IO writable σ o = Exn N σ' e ->
  σ' = σ \/ (exists i p, o = OpLoadGroup N i p) \/ ((exists i thr clock, o = OpGroup N i thr clock) /\ not_onex e).
Proof.
  destruct o; cbn [step]; intros E.
  - left. eapply load_exn; eauto.
  - left. unfold api_save in E. apply lift_exn in E as [(_ & ->)|(d & _ & E)]; auto.
    destruct (negb _); [now injection E as <-|]. apply lift_exn in E as [(_ & ->)|(t & _ & E)]; auto. discriminate.
  - left. unfold api_unload in E. apply lift_exn in E as [(_ & ->)|(d & _ & E)]; auto. discriminate.
  - discriminate.
  - discriminate.
  - left. unfold api_info in E. apply lift_exn in E as [(_ & ->)|(d & _ & E)]; auto. discriminate.
  - discriminate.
  - left. unfold api_normalize in E. apply lift_exn in E as [(_ & ->)|(d & _ & E)]; auto.
    apply lift_exn in E as [(_ & ->)|(((h & s) & (mn & mx)) & _ & E)]; auto. discriminate.
  - unfold api_group in E. apply lift_exn in E as [(_ & ->)|(d & _ & E)]; auto.
    destruct (negb _); [left; now injection E as <-|]. right. right. split; [eauto|].
    pose proof (group_pc (st_heap N σ) (st_ratio N σ) (ds_set N d) threshold (fun l => clock l || negb (st_logged N σ) && (l =? 2))) as P.
    cbn zeta in E. destruct (global_group N _ _ _ _ _ _) as [(gs & n)|x| |]; try discriminate. injection E as _ <-. exact P.
  - left. unfold api_saveGroup in E. apply lift_exn in E as [(_ & ->)|(d & _ & E)]; auto.
    destruct (ds_groups N d); [|now injection E as <-]. destruct (negb _); [now injection E as <-|].
    apply lift_exn in E as [(_ & ->)|(thr & _ & E)]; auto. apply lift_exn in E as [(_ & ->)|(t & _ & E)]; auto. discriminate.
  - right. left. eauto.
  - discriminate.
  - left. unfold api_match in E.
    apply lift_exn in E as [(_ & ->)|(d & _ & E)]; auto. apply lift_exn in E as [(_ & ->)|(dq & _ & E)]; auto.
    apply lift_exn in E as [(_ & ->)|(q & _ & E)]; auto. destruct (ds_groups N d); [|now injection E as <-].
    apply lift_exn in E as [(_ & ->)|((gs & c) & _ & E)]; auto. discriminate.
  - left. unfold api_PAA in E. apply lift_exn in E as [(_ & ->)|(d & _ & E)]; auto.
    apply lift_exn in E as [(_ & ->)|((h & s) & _ & E)]; auto. discriminate.
Qed.

(** ** The number of datasets. *)
Definition is_some {A} (o : option A) : bool := match o with Some _ => true | None => false end.
Definition nsome {A} (l : list (option A)) : Z := zlen (filter is_some l).
Definition counted (σ : st) : Prop := st_count N σ = nsome (st_sets N σ).

Lemma nsome_cons {A} (o : option A) l : nsome (o :: l) = (if is_some o then 1 else 0) + nsome l.
Proof. unfold nsome. cbn [filter]. destruct (is_some o); [now rewrite zlen_cons|lia]. Qed.
Lemma nsome_app {A} (l l' : list (option A)) : nsome (l ++ l') = nsome l + nsome l'.
Proof. unfold nsome. now rewrite filter_app, zlen_app. Qed.
Lemma nsome_set {A} (l : list (option A)) n o o' : nth_error l n = Some o ->
  nsome (list_set l n o') = nsome l - (if is_some o then 1 else 0) + (if is_some o' then 1 else 0).
Proof.
  revert n. induction l as [|x l IH]; intros [|n] H; cbn in H; try discriminate.
  - injection H as ->. cbn [list_set]. rewrite !nsome_cons. lia.
  - cbn [list_set]. rewrite !nsome_cons, (IH n H). lia.
Qed.
Lemma nsome_removelast {A} (l : list (option A)) o : nth_error l (length l - 1) = Some o -> l <> [] ->
  nsome (removelast l) = nsome l - (if is_some o then 1 else 0).
Proof.
  intros H Hn. destruct (exists_last Hn) as (l1 & x & ->). rewrite removelast_last, nsome_app.
  rewrite app_length, nth_error_app2 in H by (cbn; lia). cbn in H.
  replace (length l1 + 1 - 1 - length l1)%nat with 0%nat in H by lia. injection H as ->. rewrite nsome_cons. unfold nsome at 3. cbn. lia.
Qed.
Lemma counted_put σ i d d' : check σ i = Ok d -> counted σ -> counted (put_set N σ i (Some d')).
Proof.
  intros C H. apply check_iff in C as (_ & C). unfold counted in *. cbn [put_set with_sets st_sets st_count].
  rewrite (nsome_set _ _ _ _ C). cbn. lia.
Qed.
Lemma counted_ext σ σ' : st_sets N σ' = st_sets N σ -> st_count N σ' = st_count N σ -> counted σ -> counted σ'.
Proof. unfold counted. now intros -> ->. Qed.
Lemma counted_heap σ h : counted σ -> counted (with_heap N σ h).
Proof. auto. Qed.

Theorem step_counted σ o σ' : counted σ -> after N (step N IO writable σ o) = Some σ' -> counted σ'.
Proof.
  intros W A.
  destruct (step N IO writable σ o) as [s v|s e| |] eqn:E; cbn in A; try discriminate; injection A as ->.
  - destruct o; cbn [step] in E.
    + apply load_inv in E as (d & _ & _ & _ & _ & (_ & _ & _ & _ & Ec & _ & _ & _ & _ & Es) & _).
      unfold counted in *. rewrite Ec, Es. destruct (first_free_spec N (st_sets N σ)) as (_ & _ & F3).
      destruct (Nat.ltb_spec (first_free N (st_sets N σ)) (length (st_sets N σ))) as [H|H].
      * rewrite (nsome_set _ _ _ _ (F3 H)). cbn. lia.
      * rewrite nsome_app, nsome_cons. unfold nsome at 2. cbn. lia.
    + unfold api_save in E. apply lift_done in E as (d & _ & E). destruct (negb _); [discriminate|].
      apply lift_done in E as (t & _ & E). injection E as <- _. exact W.
    + unfold api_unload in E. apply lift_done in E as (d & C & E). injection E as <- _. apply check_inv in C as (Hr & C).
      unfold counted in *. cbn [with_count with_sets with_heap st_sets st_count].
      destruct (Z.eqb_spec i (zlen (st_sets N σ) - 1)) as [Hi|Hi].
      * unfold zlen in *. rewrite (nsome_removelast _ (Some d)); [cbn; lia| |intros Hn; rewrite Hn in Hr; cbn in Hr; lia].
        rewrite <- C. f_equal. lia.
      * rewrite (nsome_set _ _ _ _ C). cbn. lia.
    + injection E as <- _. reflexivity.
    + injection E as <- _. exact W.
    + unfold api_info in E. apply lift_done in E as (d & _ & E). injection E as <- _. exact W.
    + injection E as <- _. exact W.
    + unfold api_normalize in E. apply lift_done in E as (d & C & E). apply lift_done in E as (((h & s) & (mn & mx)) & _ & E).
      injection E as <- _. exact (counted_put (with_heap N σ h) i d _ C W).
    + unfold api_group in E. apply lift_done in E as (d & C & E). destruct (negb _); [discriminate|]. cbn zeta in E.
      destruct (global_group N _ _ _ _ _ _) as [(gs & n)|x| |]; try discriminate. injection E as <- _.
      pose proof (counted_put σ i d (mkDS N (ds_set N d) (Some gs) (Some threshold)) C W) as X. destruct (2 <=? _); exact X.
    + unfold api_saveGroup in E. apply lift_done in E as (d & _ & E). destruct (ds_groups N d); [|discriminate].
      destruct (negb _); [discriminate|]. apply lift_done in E as (thr & _ & E). apply lift_done in E as (t & _ & E). injection E as <- _. exact W.
    + unfold api_loadGroup in E. apply lift_done in E as (d & C & E). destruct (st_files N σ path); [|discriminate].
      apply lift_done in E as ((fin & thr) & _ & E). apply lift_done in E as ((gs & r) & _ & E). destruct r; [|discriminate].
      injection E as <- _. exact (counted_put σ i d _ C W).
    + injection E as <- _. exact W.
    + apply match_inv in E as (d & gs & gs' & c & dq & q & C & _ & _ & _ & _ & -> & _). exact (counted_put σ result_idx d _ C W).
    + unfold api_PAA in E. apply lift_done in E as (d & C & E). apply lift_done in E as ((h & s) & _ & E).
      injection E as <- _. exact (counted_put (with_heap N σ h) i d _ C W).
  - destruct o; try (apply step_exn in E as [->|[(? & ? & X)|((? & ? & ? & X) & _)]]; [exact W|discriminate X|discriminate X]).
    + (* group *) cbn [step] in E. unfold api_group in E. apply lift_exn in E as [(_ & ->)|(d & C & E)]; auto.
      destruct (negb _); [now injection E as <-|]. cbn zeta in E.
      destruct (global_group N _ _ _ _ _ _) as [(gs & n)|x| |]; try discriminate. injection E as <- _. exact (counted_put σ i d _ C W).
    + (* loadGroup *) cbn [step] in E. unfold api_loadGroup in E. apply lift_exn in E as [(_ & ->)|(d & C & E)]; auto.
      destruct (st_files N σ path); [|now injection E as <-].
      apply lift_exn in E as [(_ & ->)|((fin & thr) & _ & E)]; auto. apply lift_exn in E as [(_ & ->)|((gs & r) & _ & E)]; auto.
      destruct r; [discriminate|]. injection E as <- _. exact (counted_put σ i d _ C W).
Qed.

(** ** Listing. *)
Lemma all_infos_spec l : forall i, 
  Sorted Z.lt (map (i_id) (all_infos N i l)) /\
  (forall x, In x (all_infos N i l) <-> exists k d, nth_error l k = Some (Some d) /\ x = info_of N (i + Z.of_nat k) d) /\
  zlen (all_infos N i l) = nsome l.
Proof.
  induction l as [|o l IH]; intros i.
  - cbn. split; [constructor|]. split; auto. intros x. split; [tauto|]. intros ([|k] & d & H & _); discriminate.
  - destruct (IH (i + 1)) as (I1 & I2 & I3).
    assert (Hd : forall x, In x (all_infos N (i + 1) l) -> i < i_id x).
    { intros x Hx. apply I2 in Hx as (k & d & _ & ->). cbn. lia. }
    assert (Hx : forall x, (exists k d, nth_error (o :: l) k = Some (Some d) /\ x = info_of N (i + Z.of_nat k) d) <->
              (exists d, o = Some d /\ x = info_of N i d) \/ In x (all_infos N (i + 1) l)).
    { intros x. rewrite I2. split.
      - intros ([|k] & d & H & ->); cbn in H.
        + left. exists d. split; [congruence|]. f_equal. lia.
        + right. exists k, d. split; auto. f_equal. lia.
      - intros [(d & -> & ->)|(k & d & H & ->)].
        + exists 0%nat, d. split; auto. f_equal. lia.
        + exists (S k), d. split; auto. f_equal. lia. }
    destruct o as [d|]; cbn [all_infos].
    + split; [|split].
      * cbn [map]. constructor; auto. destruct (all_infos N (i + 1) l) as [|y l']; cbn; constructor. cbn. apply Hd. now left.
      * intros x. rewrite Hx. cbn [In]. split.
        -- intros [<-|H]; [left; eauto|now right].
        -- intros [(d' & E & ->)|H]; [left; congruence|now right].
      * rewrite zlen_cons, nsome_cons, I3. cbn. lia.
    + split; auto. split; [|rewrite nsome_cons, I3; cbn; lia].
      intros x. rewrite Hx. split; [now right|]. intros [(d' & E & _)|H]; [discriminate|auto].
Qed.

(** ** Representatives refer to the dataset's own buffer, to their own array, or to a freed buffer. *)
Definition src_ok (σ : st) (d : dset N) (x : tsrc N) : Prop :=
  match x with View b _ => set_buf (ds_set N d) = Some b \/ nth_error (st_heap N σ) b = Some None | _ => True end.
Definition owners (σ : st) : Prop := forall i d gs, check σ i = Ok d -> ds_groups N d = Some gs ->
  Forall (cent_src (src_ok σ d)) (gs_spaces N gs).
Lemma cent_impl (P Q : tsrc N -> Prop) o : (forall x, P x -> Q x) -> cent_src P o -> cent_src Q o.
Proof. intros H. destruct o as [ls|]; cbn; auto. apply Forall_impl. auto. Qed.
Lemma cents_impl (P Q : tsrc N -> Prop) l : (forall x, P x -> Q x) -> Forall (cent_src P) l -> Forall (cent_src Q) l.
Proof. intros H. apply Forall_impl. intros o. now apply cent_impl. Qed.

Definition owned_src (x : tsrc N) : Prop := match x with View _ _ => False | _ => True end.
Lemma addMember_centroid m g i st m' g' : addMember N m g i st = Ok (m', g') -> g_centroid N g' = g_centroid N g.
Proof.
  unfold addMember. intros E. apply bind_Ok_inv in E as (m1 & _ & E). injection E as _ <-. reflexivity.
Qed.
Lemma loadGroup_pc fin m g (E : exn -> Prop) : (forall e, E e) ->
  pc (loadGroup N IO fin m g) (fun x => owned_src (ts_src (g_centroid N (snd x)))) E.
Proof.
  intros HE. unfold loadGroup. eapply (pc_bind (fun _ => True)).
  { destruct (ts_new N (g_length N g)); cbn; auto. }
  intros c0 _. eapply (pc_bind (fun _ => True)).
  { destruct (for_ _ _ _ _); cbn; auto. }
  intros (fin1 & v) _. cbn zeta. destruct (extract conv_int fin1) as (fin2 & cnt).
  eapply (pc_bind (fun _ => True)). { destruct cnt; cbn; auto. }
  intros n _.
  eapply (pc_bind (fun x => owned_src (ts_src (g_centroid N (snd (fst x)))))).
  - apply pc_for; [exact I|]. intros i (((f & m1) & g1) & (ix & st0)) _ H. cbn [fst snd] in H.
    destruct (extract conv_int f) as (f1 & i1). destruct (extract conv_int f1) as (f2 & i2). cbn zeta.
    eapply (pc_bind (fun _ => True)). { destruct i1; [|destruct ix]; cbn; auto. }
    intros ? _. eapply (pc_bind (fun _ => True)). { destruct i2; [|destruct st0]; cbn; auto. }
    intros ? _. destruct (addMember N m1 g1 _ _) as [(m2 & g2)| | |] eqn:Ea; cbn; auto.
    now rewrite (addMember_centroid _ _ _ _ _ _ Ea).
  - intros (((f & m1) & g1) & x) H. exact H.
Qed.
Lemma local_load_pc fin ls (E : exn -> Prop) : (forall e, E e) ->
  pc (local_loadGroups N IO fin ls) (fun x => cent_src owned_src (Some (snd (fst x)))) E.
Proof.
  intros HE. unfold local_loadGroups. destruct (extract conv_int fin) as (f & n).
  eapply (pc_bind (fun _ => True)). { destruct n; cbn; auto. }
  intros k _. destruct (k <? 0); [exact I|].
  eapply (pc_bind (fun x => Forall (fun g => owned_src (ts_src (g_centroid N g))) (snd x))).
  - apply pc_for; [constructor|]. intros i ((f1 & m) & gs) _ H. cbn [snd] in H.
    eapply (pc_bind (fun _ => True)). { destruct (new_group _ _ _ _); cbn; auto. }
    intros g _. eapply pc_bind; [apply loadGroup_pc; auto|]. intros ((f2 & m2) & g2) Hg. cbn. apply Forall_app. split; auto.
  - intros ((f1 & m) & gs) H. exact H.
Qed.
Lemma global_load_pc s fin : pc (global_loadGroups N IO s fin) (fun x => Forall (cent_src owned_src) (gs_spaces N (fst x))) (fun _ => True).
Proof.
  unfold global_loadGroups. destruct (extract conv_int fin) as (f1 & lf). destruct (extract conv_int f1) as (f2 & lt).
  destruct (extract conv_word f2) as (f3 & w). cbn zeta. destruct (getDistance _) as [k|e| |]; try (cbn; constructor).
  assert (R : pc (resize_null N (set_len s + 1)) (Forall (cent_src owned_src)) (fun _ => True)).
  { unfold resize_null. destruct (_ <? 0); cbn; auto. apply Forall_forall. intros o Ho. apply repeat_spec in Ho. now subst o. }
  destruct (resize_null _ _) as [sp|e| |]; try (cbn; constructor). cbn in R.
  eapply (pc_bind (fun _ => True)). { destruct lf; cbn; auto. }
  intros a _. eapply (pc_bind (fun _ => True)). { destruct lt; cbn; auto. }
  intros b _. cbn zeta. destruct (_ <? _); [destruct (_ <? _); cbn; auto|].
  eapply (pc_bind (fun x => Forall (cent_src owned_src) (snd (fst x)))).
  - apply pc_forb; auto. intros i ((f & sp1) & r) _ H. cbn [fst snd] in H.
    assert (Q : pc (gel <- new_lspace N s i ;; local_loadGroups N IO f gel) (fun x => cent_src owned_src (Some (snd (fst x)))) (fun _ => True)).
    { eapply (pc_bind (fun _ => True)). { destruct (new_lspace _ _ _); cbn; auto. } intros gel _. apply local_load_pc; auto. }
    destruct (gel <- new_lspace N s i ;; local_loadGroups N IO f gel) as [((f5 & gel) & n)|e| |]; cbn; auto.
    destruct r as [tot|e]; cbn; auto.
    eapply pc_bind; [apply (pc_zset (cent_src owned_src) _ _ (Some gel)); [exact H|exact Q]|]. intros sp2 H2. exact H2.
  - intros ((f & sp1) & r) H. exact H.
Qed.

Definition freed_mono (h h' : heap N) : Prop := forall b, nth_error h b = Some None -> nth_error h' b = Some None.
Lemma freed_app h l : freed_mono h (h ++ l).
Proof. intros b H. rewrite nth_error_app1; auto. apply nth_error_Some. congruence. Qed.
Lemma freed_set h b x data : heap_get N h b = Ok data -> freed_mono h (list_set h b (Some x)).
Proof.
  intros H c Hc. destruct (Nat.eq_dec b c) as [<-|Hn].
  - unfold heap_get in H. rewrite Hc in H. discriminate.
  - now rewrite list_set_nth_error_neq by auto.
Qed.
Lemma freed_hfree h o : freed_mono h (hfree N h o).
Proof.
  destruct o as [c|]; intros b H; cbn; auto. destruct (Nat.eq_dec c b) as [<-|Hn].
  - rewrite list_set_nth_error_eq; auto. apply nth_error_Some. congruence.
  - now rewrite list_set_nth_error_neq by auto.
Qed.
Lemma hfree_freed h b : (b < length h)%nat -> nth_error (hfree N h (Some b)) b = Some None.
Proof. intros H. cbn. now rewrite list_set_nth_error_eq. Qed.
Lemma freed_trans h1 h2 h3 : freed_mono h1 h2 -> freed_mono h2 h3 -> freed_mono h1 h3.
Proof. unfold freed_mono. auto. Qed.

Lemma src_mono σ σ' d x : freed_mono (st_heap N σ) (st_heap N σ') -> src_ok σ d x -> src_ok σ' d x.
Proof. intros F. destruct x; cbn; auto. intros [H|H]; auto. Qed.
Lemma owners_frame σ σ' : owners σ -> freed_mono (st_heap N σ) (st_heap N σ') ->
  (forall j d', check σ' j = Ok d' -> check σ j = Ok d' \/
     (forall gs, ds_groups N d' = Some gs -> Forall (cent_src (src_ok σ' d')) (gs_spaces N gs))) -> owners σ'.
Proof.
  intros W F H i d gs Hi Hg. destruct (H i d Hi) as [H1|H1]; [|auto].
  eapply cents_impl; [|exact (W i d gs H1 Hg)]. intros x. now apply src_mono.
Qed.
Lemma owners_put σ h i d d' : owners σ -> check σ i = Ok d -> freed_mono (st_heap N σ) h ->
  (forall gs, ds_groups N d' = Some gs -> Forall (cent_src (src_ok (with_heap N σ h) d')) (gs_spaces N gs)) ->
  owners (put_set N (with_heap N σ h) i (Some d')).
Proof.
  intros W C F H. apply (owners_frame σ); auto. intros j d1 Hj. pose proof (proj1 (check_inv _ _ _ _ C)) as Hr.
  apply check_put_cases in Hj as [(-> & [= <-])|(_ & Hj)]; [right; exact H|left; exact Hj|lia].
Qed.
Lemma owned_ok σ d x : owned_src x -> src_ok σ d x.
Proof. destruct x; cbn; tauto. Qed.
Lemma set_src_ok σ d x : set_src (ds_set N d) x -> src_ok σ d x.
Proof. destruct x; cbn; auto. Qed.
Lemma with_heap_id σ : with_heap N σ (st_heap N σ) = σ.
Proof. now destruct σ. Qed.

Lemma cent_sim h (P : tsrc N -> Prop) l l' : Forall2 (osim N h) l l' -> Forall (cent_src P) l -> Forall (cent_src P) l'.
Proof.
  intros F. induction F as [|o o' l l' Ho F IH]; intros H; constructor; inversion_clear H; auto.
  destruct o as [ls|], o' as [ls'|]; cbn in *; try tauto. destruct Ho as (_ & _ & _ & G).
  clear - G H0. revert H0. induction G as [|g g' l l' Hg G IH]; intros H; constructor; inversion_clear H; auto.
  destruct Hg as (_ & _ & _ & _ & _ & ((Es & _) & _)). now rewrite <- Es.
Qed.

Theorem step_owners σ o σ' : wf N σ -> owners σ -> after N (step N IO writable σ o) = Some σ' -> owners σ'.
Proof.
  intros WF W A.
  assert (Fr : freed_mono (st_heap N σ) (st_heap N σ)) by (intros b H; exact H).
  destruct (step N IO writable σ o) as [s v|s e| |] eqn:E; cbn in A; try discriminate; injection A as ->.
  - destruct o; cbn [step] in E.
    + apply load_inv in E as (d & _ & _ & _ & _ & (_ & C1 & C2 & (l & Eh & _) & _ & Eg & _) & _).
      apply (owners_frame σ); auto; [rewrite Eh; apply freed_app|].
      intros j d' Hj. destruct (Z.eq_dec j (Z.of_nat (first_free N (st_sets N σ)))) as [->|Hn].
      * right. replace d' with d by congruence. rewrite Eg. discriminate.
      * left. now rewrite <- C2.
    + unfold api_save in E. apply lift_done in E as (d & _ & E). destruct (negb _); [discriminate|].
      apply lift_done in E as (t & _ & E). injection E as <- _. apply (owners_frame σ); auto.
    + apply unload_inv in E as (d & C & C1 & C2 & Eh & _). apply (owners_frame σ); auto; [rewrite Eh; apply freed_hfree|].
      intros j d' Hj. left. rewrite <- C2; auto. intros ->. congruence.
    + injection E as <- _. intros i d gs Hi. exfalso. clear -Hi. apply check_iff in Hi as (_ & Hi). destruct (Z.to_nat i); discriminate Hi.
    + injection E as <- _. exact W.
    + unfold api_info in E. apply lift_done in E as (d & _ & E). injection E as <- _. exact W.
    + injection E as <- _. exact W.
    + unfold api_normalize in E. apply lift_done in E as (d & C & E). apply lift_done in E as (((h & s) & (mn & mx)) & En & E).
      injection E as <- _. apply normalize_inv in En as (b & old & new & Eb & Ho & -> & ->).
      eapply owners_put; eauto; [eapply freed_set; eauto|]. cbn [ds_groups]. intros gs Hg.
      eapply cents_impl; [|exact (W _ _ _ C Hg)]. intros x Hx. apply (src_mono σ); [cbn; eapply freed_set; eauto|].
      destruct x; cbn in *; auto. now rewrite <- Eb.
    + unfold api_group in E. apply lift_done in E as (d & C & E). destruct (negb _); [discriminate|]. cbn zeta in E.
      pose proof (group_pc (st_heap N σ) (st_ratio N σ) (ds_set N d) threshold (fun l => clock l || negb (st_logged N σ) && (l =? 2))) as P.
      destruct (global_group N _ _ _ _ _ _) as [(gs & n)|x| |]; try discriminate. injection E as <- _. cbn in P.
      assert (X : owners (put_set N σ i (Some (mkDS N (ds_set N d) (Some gs) (Some threshold))))).
      { rewrite <- (with_heap_id σ) at 1. eapply owners_put; eauto. cbn [ds_groups]. intros gs' [= <-].
        eapply cents_impl; [|exact P]. intros y. apply (set_src_ok _ (mkDS N (ds_set N d) (Some gs) (Some threshold))). }
      destruct (2 <=? _); [apply (owners_frame _ _ X); auto; intros b H; exact H|exact X].
    + unfold api_saveGroup in E. apply lift_done in E as (d & _ & E). destruct (ds_groups N d); [|discriminate].
      destruct (negb _); [discriminate|]. apply lift_done in E as (thr & _ & E). apply lift_done in E as (t & _ & E). injection E as <- _.
      apply (owners_frame σ); auto.
    + unfold api_loadGroup in E. apply lift_done in E as (d & C & E). destruct (st_files N σ path); [|discriminate].
      apply lift_done in E as ((fin & thr) & _ & E). pose proof (global_load_pc (ds_set N d) fin) as P.
      apply lift_done in E as ((gs & r) & El & E). rewrite El in P. cbn in P. destruct r; [|discriminate].
      injection E as <- _. rewrite <- (with_heap_id σ) at 1. eapply owners_put; eauto. cbn [ds_groups]. intros gs' [= <-].
      eapply cents_impl; [|exact P]. intros y. apply owned_ok.
    + injection E as <- _. apply (owners_frame σ); auto.
    + apply match_inv in E as (d & gs & gs' & c & dq & q & C & _ & _ & Hg & Em & -> & _).
      rewrite <- (with_heap_id σ) at 1. eapply owners_put; eauto. cbn [ds_groups]. intros gs1 [= <-].
      apply match_sim in Em as (_ & _ & F). eapply cent_sim; [exact F|]. rewrite with_heap_id. exact (W _ _ _ C Hg).
    + unfold api_PAA in E. apply lift_done in E as (d & C & E). apply lift_done in E as ((h & s) & En & E).
      injection E as <- _. apply PAA_inv in En as (new & -> & -> & _).
      assert (Fm : freed_mono (st_heap N σ) (hfree N (st_heap N σ) (set_buf (ds_set N d)) ++ [Some new]))
        by (eapply freed_trans; [apply freed_hfree|apply freed_app]).
      eapply owners_put; eauto. cbn [ds_groups]. intros gs Hg.
      eapply cents_impl; [|exact (W _ _ _ C Hg)]. intros x Hx.
      destruct x as [b p| |]; cbn [src_ok] in *; auto. right. cbn. destruct Hx as [Hb|Hb]; [|auto].
      rewrite Hb. destruct WF as (WF & _). destruct (WF i d C b Hb) as (data & Hd). apply heap_get_lt in Hd.
      rewrite nth_error_app1 by (rewrite hfree_length; auto). apply (hfree_freed (st_heap N σ) b Hd).
  - destruct o; try (apply step_exn in E as [->|[(? & ? & X)|((? & ? & ? & X) & _)]]; [exact W|discriminate X|discriminate X]).
    + (* group *) cbn [step] in E. unfold api_group in E. apply lift_exn in E as [(_ & ->)|(d & C & E)]; auto.
      destruct (negb _); [now injection E as <-|]. cbn zeta in E.
      destruct (global_group N _ _ _ _ _ _) as [(gs & n)|x| |]; try discriminate. injection E as <- _.
      rewrite <- (with_heap_id σ) at 1. eapply owners_put; eauto. cbn [ds_groups]. intros gs' [= <-]. constructor.
    + (* loadGroup *) cbn [step] in E. unfold api_loadGroup in E. apply lift_exn in E as [(_ & ->)|(d & C & E)]; auto.
      destruct (st_files N σ path); [|now injection E as <-].
      apply lift_exn in E as [(_ & ->)|((fin & thr) & _ & E)]; auto. pose proof (global_load_pc (ds_set N d) fin) as P.
      apply lift_exn in E as [(_ & ->)|((gs & r) & El & E)]; auto. rewrite El in P. cbn in P.
      destruct r; [discriminate|]. injection E as <- _. rewrite <- (with_heap_id σ) at 1. eapply owners_put; eauto. cbn [ds_groups]. intros gs' [= <-].
      eapply cents_impl; [|exact P]. intros y. apply owned_ok.
Qed.

Lemma init_counted files : counted (st_init N files).
Proof. reflexivity. Qed.
Lemma init_owners files : owners (st_init N files).
Proof. intros i d gs Hi. exfalso. apply check_iff in Hi as (_ & Hi). destruct (Z.to_nat i); discriminate Hi. Qed.
End ApiProofs.
