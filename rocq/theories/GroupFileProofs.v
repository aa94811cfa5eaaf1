(** * Proofs about writing groups to a file and reading them back. *)
From Coq Require Import ZArith Bool Lia Reals Lra SpecFloat Ascii String List.
From Flocq Require Import Core BinarySingleNaN.
From Verif Require Import Outcome Num Distance TimeSeries Text Dataset Groups Laws F64Base F64Laws DecSpec NumSpec DecProofs PrintProofs StreamProofs SaveProofs.
From Verif Require Import TsProofs GroupSpec GroupFileSpec GroupProofs MatchProofs.
Import ListNotations.
Open Scope Z_scope.

(** ** Reading what was printed. *)
Lemma white_sp : white sp. Proof. right. reflexivity. Qed.
Lemma white_nl : white nl. Proof. left. cbv. split; discriminate. Qed.
Lemma num_not_white c : digit c \/ In c ["-"; "+"; "."; "e"; "E"]%char -> ~ white c.
Proof.
  intros [H|H] Hw.
  - unfold digit, white in *. lia.
  - unfold white in Hw. cbn [In] in H. destruct H as [<-|[<-|[<-|[<-|[<-|[]]]]]]; cbn in Hw; lia.
Qed.
Lemma int_word z : print_Z z <> [] /\ Forall (fun c => ~ white c) (print_Z z).
Proof.
  pose proof (print_Z_spec z) as H. split.
  - destruct H as (neg & s & ds & -> & _ & Hd & _). intros E. apply app_eq_nil in E. tauto.
  - apply Forall_forall. intros c Hc. apply num_not_white. destruct (int_text_chars _ _ _ H Hc) as [|[<-|[<-|[]]]]; [auto|right; cbn; auto|right; cbn; auto].
Qed.
Lemma first_int_printed ws z c t : Forall white ws -> white c -> - 2 ^ 31 <= z < 2 ^ 31 -> first_int (ws ++ print_Z z ++ c :: t) z (c :: t).
Proof.
  intros Hw Hc Hz. destruct (int_word z) as (H1 & H2). exists (print_Z z). split; [|split; auto using print_Z_spec]. exists ws. split; auto. split; auto. split; auto. split; auto. eauto.
Qed.
Lemma first_double_printed P ws x c t : 1 <= P -> Forall white ws -> white c -> fin64 x -> (Rabs (rnd (round10 P (val x))) < BIG)%R ->
  exists y, double_of y (sign_SF x) (round10 P (val x)) /\ first_double (ws ++ print_g P x ++ c :: t) y (c :: t).
Proof.
  intros HP Hw Hc F Hb. destruct (print_g_spec P x HP F) as (m & e & Ht & Hm & Hv). pose proof (dec_mantissa _ _ _ _ Ht) as H0.
  exists (lit_value (sign_SF x) (LDec (Z.to_N m) e)). rewrite <- Hv in *. assert (D := lit_double (sign_SF x) m e H0 Hb). split; auto.
  exists (print_g P x), (sign_SF x), m, e. split; [|split; auto]. exists ws. split; auto. split; auto. split; [|split].
  - destruct Ht as (s & ip & fp & point & expo & q & -> & _ & _ & _ & Hn & Hp & _). intros E. apply app_eq_nil in E as (_ & E). apply app_eq_nil in E as (E1 & E). apply app_eq_nil in E as (E2 & _).
    subst. destruct Hp as [Hp|(_ & ->)]; [discriminate|]. now apply Hn.
  - apply Forall_forall. intros a Ha. apply num_not_white. eapply dec_text_chars; eauto.
  - eauto.
Qed.
(** ** Lists. *)
Definition zskip {A} (k : Z) (l : list A) : list A := skipn (Z.to_nat k) l.
Definition ztake {A} (k : Z) (l : list A) : list A := firstn (Z.to_nat k) l.
Lemma zskip_get {A} (l : list A) k x : zget l k = Ok x -> zskip k l = x :: zskip (k + 1) l.
Proof.
  intros H. apply zget_inv in H as (R & H). unfold zskip. replace (Z.to_nat (k + 1)) with (S (Z.to_nat k)) by lia.
  clear R. revert H. generalize (Z.to_nat k) as n. induction l as [|a l IH]; intros [|n] H; cbn in H; try discriminate.
  - injection H as ->. reflexivity.
  - now apply IH.
Qed.
Lemma ztake_get {A} (l : list A) k x : zget l k = Ok x -> ztake (k + 1) l = ztake k l ++ [x].
Proof.
  intros H. apply zget_inv in H as (R & H). unfold ztake. replace (Z.to_nat (k + 1)) with (S (Z.to_nat k)) by lia.
  clear R. revert H. generalize (Z.to_nat k) as n. induction l as [|a l IH]; intros [|n] H; cbn in H; try discriminate.
  - injection H as ->. reflexivity.
  - change (firstn (S (S n)) (a :: l)) with (a :: firstn (S n) l). now rewrite (IH n).
Qed.
Lemma zskip_all {A} (l : list A) : zskip (zlen l) l = [].
Proof. unfold zskip, zlen. rewrite Nat2Z.id. apply skipn_all. Qed.
Lemma ztake_all {A} (l : list A) : ztake (zlen l) l = l.
Proof. unfold ztake, zlen. rewrite Nat2Z.id. apply firstn_all. Qed.
Lemma ztake_in {A} (l : list A) k x : In x (ztake k l) -> In x l.
Proof. intros H. rewrite <- (firstn_skipn (Z.to_nat k) l). apply in_or_app. now left. Qed.
Lemma zrepeat_len {A} (x : A) n : 0 <= n -> zlen (zrepeat x n) = n.
Proof. intros H. unfold zlen, zrepeat. rewrite repeat_length. lia. Qed.

Lemma lengths_snoc n : 1 <= n -> lengths (n + 1) = lengths n ++ [n + 1].
Proof.
  intros H. unfold lengths. replace (Z.to_nat (n + 1 - 1)) with (S (Z.to_nat (n - 1))) by lia. rewrite seq_S, map_app. cbn [map]. replace (2 + Z.of_nat (0 + Z.to_nat (n - 1))) with (n + 1) by lia. reflexivity.
Qed.
Lemma lengths_in n L : In L (lengths n) <-> 2 <= L <= n.
Proof.
  unfold lengths. rewrite in_map_iff. split.
  - intros (k & <- & Hk). apply in_seq in Hk. lia.
  - intros H. exists (Z.to_nat (L - 2)). split; [lia|]. apply in_seq. lia.
Qed.

(** ** The text of a group file. *)
Definition dbl_text (x : spec_float) : text := print_g 16 x ++ [sp].
Definition coord_text (c : coord) : text := print_Z (fst c) ++ [sp] ++ print_Z (snd c) ++ [sp].
Definition group_text (v : list spec_float) (ms : list coord) : text :=
  flat_map dbl_text v ++ [nl] ++ print_Z (zlen ms) ++ [sp] ++ flat_map coord_text (rev ms) ++ [nl].
Definition local_text (f : coord -> list spec_float) (gm : list (list coord)) : text :=
  print_Z (zlen gm) ++ [nl] ++ flat_map (fun ms => group_text (f (hd (0, 0) ms)) ms) gm.
Definition spaces_text (f : Z -> coord -> list spec_float) (gmf : Z -> list (list coord)) (n : Z) : text :=
  flat_map (fun L => local_text (f L) (gmf L)) (lengths n).
Definition file_text (name : string) (f : Z -> coord -> list spec_float) (gmf : Z -> list (list coord)) (n : Z) : text :=
  print_Z 2 ++ [sp] ++ print_Z (n + 1) ++ [nl] ++ T_ name ++ [nl] ++ spaces_text f gmf n.

(** ** Saving. *)
Section Saving.
Context (h : heap F64) (s : tset) (b : nat) (data : list (num F64)).
Hypothesis Hbuf : set_buf s = Some b.
Hypothesis Hheap : heap_get F64 h b = Ok data.
Hypothesis Hlen : set_len s <= 2 ^ 30.
Hypothesis Hcnt : 0 <= set_count s.
Hypothesis Hsize : set_count s * set_len s <= zlen data.
Local Notation vals := (vals F64 s data).

Lemma saveGroup_text L ls gm gi ms g : 1 <= L <= set_len s -> ls_ok F64 h s b L ls gm -> zget gm gi = Ok ms -> zget (ls_groups F64 ls) gi = Ok g ->
  saveGroup F64 F64_IO h (ls_map F64 ls) g = Ok (group_text (vals L (hd (0, 0) ms)) ms).
Proof.
  intros HL H Hi Hg. pose proof (proj1 (proj2 (proj2 (proj2 (proj2 H)))) _ _ _ Hg Hi) as G.
  destruct G as (G1 & G2 & G3 & G4 & G5 & G6 & Sc & _). pose proof (ls_members_valid F64 h s b L _ _ _ _ H Hi _ (hd_in (0, 0) ms G5)) as Vh.
  unfold saveGroup, printData. rewrite (same_read F64 h _ _ Sc), (read_view F64 h s b data Hheap) by auto. cbn [bind]. rewrite G4.
  set (out0 := _ ++ _). set (w := while_ _ _ _ _).
  assert (P : Post w (fun st => snd st = out0 ++ flat_map coord_text (rev ms))).
  { unfold w. eapply Post_conseq; [eapply (walk_members F64 h s b Hlen L HL ls gm gi ms _ _ fst (fun rem st => exists r2, ms = rem ++ r2 /\ snd st = out0 ++ flat_map coord_text (rev r2))); eauto|].
    - exists []. rewrite app_nil_r. split; auto. cbn. now rewrite app_nil_r.
    - intros rem c (cur, acc) _ (r2 & Er & Ea) Ecur Vc Hp. cbn [fst snd] in *. subst cur acc.
      rewrite G3. rewrite Hp. cbn [bind]. apply Post_Ok. cbn [fst snd].
      split; auto. exists (c :: r2). rewrite <- app_assoc in Er. split; auto. cbn [rev]. rewrite flat_map_snoc. rewrite <- app_assoc. reflexivity.
    - intros st (r2 & E0 & E1). cbn in E0. subst r2. exact E1. }
  destruct (Post_inv _ _ P) as ((cur & acc) & -> & Ea). cbn [snd bind] in *. rewrite Ea. unfold out0, group_text, dbl_text. cbn [io_print F64_IO]. now rewrite <- !app_assoc.
Qed.
Lemma local_text_saved L ls gm : 1 <= L <= set_len s -> ls_ok F64 h s b L ls gm ->
  local_saveGroups F64 F64_IO h ls false = Ok (local_text (vals L) gm).
Proof.
  intros HL H. pose proof H as (_ & _ & _ & Hz & _). unfold local_saveGroups. rewrite Hz.
  set (f := fun ms => group_text (vals L (hd (0, 0) ms)) ms).
  assert (P : Post (for_each (ls_groups F64 ls) (fun g out => t <- saveGroup F64 F64_IO h (ls_map F64 ls) g ;; Ok (out ++ t)) (print_Z (zlen gm) ++ [nl]))
    (fun out => out = local_text (vals L) gm)).
  { eapply Post_conseq; [apply (for_each_rule (fun done out => out = (print_Z (zlen gm) ++ [nl]) ++ flat_map f (ztake (zlen done) gm)) _ (ls_groups F64 ls) [])|].
    - cbn. now rewrite app_nil_r.
    - intros pre g post out E ->. cbn [app].
      assert (Eg : zget (ls_groups F64 ls) (zlen pre) = Ok g).
      { rewrite E. rewrite zget_app_r by lia. now rewrite Z.sub_diag. }
      destruct (zget_Ok gm (zlen pre)) as (ms & Em). { apply zget_inv in Eg. lia. }
      rewrite (saveGroup_text L ls gm (zlen pre) ms g HL H Em Eg). cbn [bind]. apply Post_Ok.
      rewrite zlen_app. change (zlen [g]) with 1. rewrite (ztake_get gm (zlen pre) ms Em), flat_map_snoc. now rewrite <- !app_assoc.
    - intros out ->. cbn [app]. rewrite Hz, ztake_all. unfold local_text. now rewrite <- app_assoc. }
  destruct (Post_inv _ _ P) as (out & -> & ->). reflexivity.
Qed.
Lemma global_text_saved gmf gs : spaces_ok F64 h s b gmf (gs_spaces F64 gs) ->
  global_saveGroups F64 F64_IO h gs false = Ok (file_text (gs_name F64 gs) vals gmf (set_len s)).
Proof.
  intros (Hz & Hsp). unfold global_saveGroups. rewrite Hz. set (out0 := print_Z 2 ++ _).
  assert (P : Post (for_ 2 (set_len s + 1) (fun i out => o <- zget (gs_spaces F64 gs) i ;;
      match o with None => UB NullDeref | Some ls => t <- local_saveGroups F64 F64_IO h ls false ;; Ok (out ++ t) end) out0)
    (fun out => out = out0 ++ spaces_text vals gmf (set_len s))).
  { eapply Post_conseq; [apply (for_rule (fun i out => out = out0 ++ spaces_text vals gmf (i - 1)))|].
    - cbn. now rewrite app_nil_r.
    - intros L out HL ->. destruct (Hsp L ltac:(lia)) as (ls & E & H). rewrite E. cbn [bind].
      rewrite (local_text_saved L ls (gmf L)) by (auto; lia). cbn [bind]. apply Post_Ok. unfold spaces_text.
      replace (L + 1 - 1) with ((L - 1) + 1) by lia. rewrite lengths_snoc by lia. rewrite flat_map_snoc, <- app_assoc. replace (L - 1 + 1) with L by lia. reflexivity.
    - intros out ->. f_equal. destruct (Z.max_spec 2 (set_len s + 1)) as [(_ & ->)|(Hm & ->)]; [f_equal; lia|].
      unfold spaces_text, lengths. now replace (Z.to_nat (set_len s - 1)) with 0%nat by lia. }
  destruct (Post_inv _ _ P) as (out & -> & ->). unfold out0, file_text. now rewrite <- !app_assoc.
Qed.
End Saving.

(** ** Loading. *)
(** Outcomes that are out of bounds only if [bad]. *)
Definition PostU {A} (bad : Prop) (o : outcome A) (Q : A -> Prop) : Prop := (o = UB OutOfBounds /\ bad) \/ Post o Q.
Lemma PostU_Post {A} bad (o : outcome A) Q : Post o Q -> PostU bad o Q.
Proof. now right. Qed.
Lemma PostU_seq {A B} bad (P : A -> Prop) (o : outcome A) (k : A -> outcome B) (Q : B -> Prop) :
  PostU bad o P -> (forall a, P a -> PostU bad (k a) Q) -> PostU bad (bind o k) Q.
Proof.
  intros [(-> & H)|H] Hk; [left; auto|]. destruct (Post_inv _ _ H) as (a & -> & Ha). now apply Hk.
Qed.
Lemma PostU_conseq {A} (bad bad' : Prop) (o : outcome A) (Q Q' : A -> Prop) : PostU bad o Q -> (bad -> bad') -> (forall a, Q a -> Q' a) -> PostU bad' o Q'.
Proof. intros [(-> & H)|H] Hb HQ; [left; auto|]. right. eapply Post_conseq; eauto. Qed.
Lemma for_rule_U {S} bad (I : Z -> S -> Prop) lo hi (body : Z -> S -> outcome S) s : lo <= hi -> I lo s ->
  (forall j t, lo <= j < hi -> I j t -> PostU bad (body j t) (I (j + 1))) -> PostU bad (for_ lo hi body s) (I hi).
Proof.
  intros H HI Hb. unfold for_. replace hi with (lo + Z.of_nat (Z.to_nat (hi - lo))) at 2 by lia.
  assert (Hb' : forall j t, lo <= j < lo + Z.of_nat (Z.to_nat (hi - lo)) -> I j t -> PostU bad (body j t) (I (j + 1))) by (intros; apply Hb; [lia|auto]).
  clear Hb. revert Hb'. generalize (Z.to_nat (hi - lo)) as n. clear H. intros n. revert lo s HI.
  induction n as [|n IH]; intros i t HI Hb; cbn [loop].
  - rewrite Z.add_0_r. right. exact HI.
  - eapply PostU_seq; [apply Hb; [lia|exact HI]|]. intros u Hu. replace (i + Z.of_nat (Datatypes.S n)) with (i + 1 + Z.of_nat n) by lia.
    apply IH; auto. intros j v Hj. apply Hb. lia.
Qed.
Lemma forb_rule_U {S} bad (I : Z -> S -> Prop) lo hi (body : Z -> S -> outcome (ctl S)) s : I lo s ->
  (forall j t, lo <= j < hi -> I j t -> PostU bad (body j t) (fun c => exists t', c = Next t' /\ I (j + 1) t')) -> PostU bad (forb lo hi body s) (I (Z.max lo hi)).
Proof.
  intros HI Hb. unfold forb. replace (Z.max lo hi) with (lo + Z.of_nat (Z.to_nat (hi - lo))) by lia.
  assert (Hb' : forall j t, lo <= j < lo + Z.of_nat (Z.to_nat (hi - lo)) -> I j t -> PostU bad (body j t) (fun c => exists t', c = Next t' /\ I (j + 1) t')) by (intros; apply Hb; [lia|auto]).
  clear Hb. revert Hb'. generalize (Z.to_nat (hi - lo)) as n. intros n. revert lo s HI.
  induction n as [|n IH]; intros i t HI Hb; cbn [loopb].
  - rewrite Z.add_0_r. right. exact HI.
  - eapply PostU_seq; [apply Hb; [lia|exact HI]|]. intros c (u & -> & Hu). replace (i + Z.of_nat (Datatypes.S n)) with (i + 1 + Z.of_nat n) by lia.
    apply IH; auto. intros j v Hj. apply Hb. lia.
Qed.

Lemma zlist_ext {A} (l l' : list A) : zlen l = zlen l' -> (forall i x y, zget l i = Ok x -> zget l' i = Ok y -> x = y) -> l = l'.
Proof.
  revert l'. induction l as [|a l IH]; intros [|b l'] Hl H; auto; try (unfold zlen in Hl; cbn in Hl; lia).
  f_equal; [apply (H 0); reflexivity|]. apply IH; [unfold zlen in *; cbn in Hl; lia|]. intros i x y Hx Hy. apply (H (i + 1)).
  - rewrite <- Hx. pose proof (zget_inv _ _ _ Hx) as (R & _). unfold zget. destruct (Z.ltb_spec (i + 1) 0); [lia|]. destruct (Z.ltb_spec i 0); [lia|]. replace (Z.to_nat (i + 1)) with (S (Z.to_nat i)) by lia. reflexivity.
  - rewrite <- Hy. pose proof (zget_inv _ _ _ Hy) as (R & _). unfold zget. destruct (Z.ltb_spec (i + 1) 0); [lia|]. destruct (Z.ltb_spec i 0); [lia|]. replace (Z.to_nat (i + 1)) with (S (Z.to_nat i)) by lia. reflexivity.
Qed.
Lemma zget_zrepeat {A} (x : A) n i : 0 <= i < n -> zget (zrepeat x n) i = Ok x.
Proof.
  intros H. destruct (zget_Ok (zrepeat x n) i) as (y & E); [rewrite zrepeat_len; lia|]. rewrite E. apply zget_in in E. apply repeat_spec in E. now subst.
Qed.

Lemma last_in' {A} (l : list A) d : l <> [] -> In (last l d) l.
Proof. intros H. destruct (exists_last H) as (l' & a & ->). rewrite last_last. apply in_or_app. right. now left. Qed.

Section Loading.
Context (s : tset).
Hypothesis Hcnt : 0 <= set_count s.

Section OneLength.
Context (L : Z).
Hypothesis HL : 1 <= L <= set_len s.
Local Notation sub := (set_len s - L + 1).
Local Notation cpos := (cpos s L).

(** The representative. *)
Lemma load_values v t r : reads first_double t v r -> zlen v = L ->
  for_ 0 L (fun i st => let '(fin, v) := st in let '(fin, x) := extract (io_conv F64_IO) fin in
      match x with Some x => v <- zset v i x ;; Ok (fin, v) | None => Ok (fin, v) end) (mkIS t false, zrepeat (nzero F64) L) = Ok (mkIS r false, v).
Proof.
  intros Hr Hv. set (w := for_ _ _ _ _). assert (P : Post w (fun st => st = (mkIS r false, v))).
  { unfold w. eapply Post_conseq; [apply (for_rule_le (fun i (st : istream * list spec_float) => exists t', fst st = mkIS t' false /\ reads first_double t' (zskip i v) r /\ zlen (snd st) = L /\
      forall k x y, k < i -> zget v k = Ok x -> zget (snd st) k = Ok y -> x = y))|]; [lia| | |].
    - exists t. split; auto. split; auto. split; [apply zrepeat_len; lia|]. intros k x y Hk Hx. apply zget_inv in Hx. lia.
    - intros i (fin1 & v1) Hi (t1 & E1 & R1 & Z1 & H1). cbn [fst snd] in *. subst fin1. destruct (zget_Ok v i) as (x & Ex); [lia|].
      rewrite (zskip_get _ _ _ Ex) in R1. cbn [reads] in R1. destruct R1 as (t2 & D2 & R2).
      change (io_conv F64_IO) with conv_double. change (num F64) with spec_float in *. rewrite (extract_double _ _ _ D2).
      destruct (zset_ex v1 i x) as (v2 & E2); [lia|]. rewrite E2. cbn [bind]. apply Post_Ok. exists t2. cbn [fst snd]. split; auto. split; auto.
      split; [now rewrite (zset_len _ _ _ _ E2)|]. intros k x' y' Hk Hx' Hy'. destruct (Z.eq_dec i k) as [<-|Hn].
      + rewrite (zget_zset_eq _ _ _ _ E2) in Hy'. congruence.
      + rewrite (zget_zset_neq _ _ _ _ _ E2) in Hy' by auto. apply (H1 k); auto. lia.
    - intros (fin1 & v1) (t1 & E1 & R1 & Z1 & H1). cbn [fst snd] in *. subst fin1. rewrite <- Hv, zskip_all in R1. cbn in R1. subst t1. f_equal.
      change (num F64) with spec_float in *. symmetry. apply zlist_ext; [lia|]. intros i x y Hx Hy. apply (H1 i); auto. apply zget_inv in Hx. change (num F64) with spec_float in *. lia. }
  destruct (Post_inv _ _ P) as (x & E & ->). exact E.
Qed.

(** The links of a group: those of the last occurrence of each member. *)
Definition last_links (m : list membership) (gi : Z) (cs : list coord) : Prop :=
  forall i c, zget cs i = Ok c -> (forall i' c', i < i' -> zget cs i' = Ok c' -> cpos c' <> cpos c) ->
    zget m (cpos c) = Ok (mkMem (last (ztake i cs) (-1, -1)) (Some gi)).
Definition inside (c : coord) : Prop := 0 <= cpos c < set_count s * sub.
(** Every link can be followed or ends the walk. *)
Definition tame (m : list membership) : Prop := forall p e, zget m p = Ok e -> mem_prev e = (-1, -1) \/ inside (mem_prev e).

Lemma loadGroup_spec v cs t r m gi g : reads_group t (v, cs) r -> zlen v = L -> zlen m = set_count s * sub -> tame m -> new_group F64 gi L sub = Ok g ->
  PostU (exists c, In c cs /\ ~ inside c) (loadGroup F64 F64_IO (mkIS t false) m g) (fun a => let '(fin, m', g') := a in
    fin = mkIS r false /\ zlen m' = zlen m /\ g' = mkGroup F64 gi (last cs (-1, -1)) L sub (zlen cs) (@mkTS F64 (@Owned F64 v) 0 0 L L None) /\
    (forall c, In c cs -> inside c) /\ last_links m' gi cs /\ (forall p, (forall c, In c cs -> cpos c <> p) -> zget m' p = zget m p) /\ tame m').
Proof.
  intros (t1 & t2 & R1 & R2 & R3) Hv Hm Ht Hg. cbn [fst snd] in *. unfold new_group, ts_new in Hg. destruct (Z.ltb_spec L 0); [lia|]. cbn [bind] in Hg. injection Hg as <-.
  unfold loadGroup. cbn [g_length]. unfold ts_new. destruct (Z.ltb_spec L 0); [lia|]. cbn [bind].
  rewrite (load_values v t t1 R1 Hv). cbn [bind]. rewrite (extract_int _ _ _ R2).
  unfold set_centroid_ts, ts_assign. cbn [init bind g_index g_last g_length g_sub g_count g_centroid ts_index ts_start ts_end ts_len ts_src ts_cache].
  set (cent := @mkTS F64 (@Owned F64 v) 0 0 L L None).
  eapply PostU_seq; [apply (for_rule_U _ (fun i (st : istream * list membership * group F64 * (option Z * option Z)) => let '(fin, m1, g, _) := st in
      (exists t', fin = mkIS t' false /\ reads reads_coord t' (zskip i cs) r) /\ zlen m1 = zlen m /\ (forall c, In c (ztake i cs) -> inside c) /\
      (forall k c, k < i -> zget cs k = Ok c -> (forall k' c', k < k' < i -> zget cs k' = Ok c' -> cpos c' <> cpos c) ->
         zget m1 (cpos c) = Ok (mkMem (last (ztake k cs) (-1, -1)) (Some gi))) /\
      g = mkGroup F64 gi (last (ztake i cs) (-1, -1)) L sub i cent /\
      (forall p, (forall c, In c cs -> cpos c <> p) -> zget m1 p = zget m p) /\ tame m1))|]; [apply zlen_nonneg| | |].
  - split; [eauto|]. split; auto. split; [intros c []|]. split; [intros k c Hk Hc; apply zget_inv in Hc; lia|]. split; [reflexivity|auto].
  - intros i (((fin3 & m3) & g3) & (ix & sx)) Hi ((t3 & -> & A3) & Z3 & I3 & C3 & -> & F3 & T3).
    destruct (zget_Ok cs i Hi) as (c & Ec). rewrite (zskip_get _ _ _ Ec) in A3. cbn [reads] in A3. destruct A3 as (t5 & (t4 & B1 & B2) & A5).
    assert (Hc : In c cs) by (eapply zget_in; eauto).
    rewrite (extract_int _ _ _ B1), (extract_int _ _ _ B2). cbn [init bind]. unfold addMember. cbn [g_index g_last g_length g_sub g_count g_centroid]. fold (cpos c).
    destruct (Z.ltb_spec (cpos c) 0) as [Hlo|Hlo]; [left; split; [|exists c; split; auto; unfold inside; lia]; unfold zset; destruct (Z.ltb_spec (cpos c) 0); [reflexivity|lia]|].
    destruct (Z.leb_spec (zlen m3) (cpos c)) as [Hhi|Hhi]; [left; split; [|exists c; split; auto; unfold inside; lia]; unfold zset; destruct (Z.leb_spec (zlen m3) (cpos c)); [now rewrite orb_true_r|lia]|].
    destruct (zset_ex m3 (cpos c) (mkMem (last (ztake i cs) (-1, -1)) (Some gi))) as (m4 & E4); [lia|].
    rewrite E4. cbn [bind]. right. apply Post_Ok. split; [eauto|]. split; [rewrite (zset_len _ _ _ _ E4); auto|].
    rewrite (ztake_get _ _ _ Ec). split; [|split; [|split; [|split]]].
    + intros c' Hc'. apply in_app_iff in Hc' as [Hc'|[<-|[]]]; auto. unfold inside. lia.
    + intros k c' Hk Hc' Hlast. destruct (Z.eq_dec k i) as [->|Hn].
      * replace c' with c by congruence. exact (zget_zset_eq _ _ _ _ E4).
      * rewrite (zget_zset_neq _ _ _ _ _ E4) by (apply (Hlast i); auto; lia). apply C3; auto; [lia|]. intros k' c2 Hk' Hc2. apply (Hlast k'); auto. lia.
    + rewrite (last_last (ztake i cs) c). destruct c; reflexivity.
    + intros p Hq. rewrite (zget_zset_neq _ _ _ _ _ E4) by (now apply Hq). now apply F3.
    + intros p e He. destruct (Z.eq_dec (cpos c) p) as [<-|Hn]; [|rewrite (zget_zset_neq _ _ _ _ _ E4) in He by auto; eauto].
      rewrite (zget_zset_eq _ _ _ _ E4) in He. injection He as <-. cbn [mem_prev]. destruct (ztake i cs) as [|c1 l1] eqn:E1; [left; reflexivity|right].
      rewrite <- E1 in I3 |- *. apply I3. apply last_in'. congruence.
  - intros (((fin3 & m3) & g3) & x3) ((t3 & -> & A3) & Z3 & I3 & C3 & -> & F3 & T3). cbn [bind]. right. apply Post_Ok. rewrite zskip_all in A3. cbn in A3. subst t3.
    rewrite ztake_all in *. do 4 (split; [auto|]). split; [|auto]. intros i c Hi Hlast. apply C3; auto; [apply zget_inv in Hi; lia|]. intros k' c' Hk'. apply Hlast. lia.
Qed.

(** All groups of one length. *)
Definition apart (cs cs' : list coord) : Prop := forall c c', In c cs -> In c' cs' -> cpos c <> cpos c'.
Definition lists_ok (ls : lspace F64) (gl : list (list spec_float * list coord)) : Prop :=
  ls_length F64 ls = L /\ ls_sub F64 ls = sub /\ zlen (ls_map F64 ls) = set_count s * sub /\ zlen (ls_groups F64 ls) = zlen gl /\
  tame (ls_map F64 ls) /\ (forall v cs c, In (v, cs) gl -> In c cs -> inside c) /\
  (forall k g v cs, zget (ls_groups F64 ls) k = Ok g -> zget gl k = Ok (v, cs) ->
     g = mkGroup F64 k (last cs (-1, -1)) L sub (zlen cs) (@mkTS F64 (@Owned F64 v) 0 0 L L None) /\
     ((forall k' v' cs', k < k' -> zget gl k' = Ok (v', cs') -> apart cs cs') -> last_links (ls_map F64 ls) k cs)).
Lemma last_links_frame m m' gi cs : (forall c, In c cs -> zget m' (cpos c) = zget m (cpos c)) -> last_links m gi cs -> last_links m' gi cs.
Proof. intros H Hl i c Hi Hlast. rewrite H by (eapply zget_in; eauto). now apply Hl. Qed.

Lemma local_load_spec f t r ls0 : new_lspace F64 s L = Ok ls0 -> (forall v cs, In (v, cs) (f L) -> zlen v = L) -> reads_length f t L r ->
  PostU (exists v cs c, In (v, cs) (f L) /\ In c cs /\ ~ inside c) (local_loadGroups F64 F64_IO (mkIS t false) ls0) (fun a => let '(fin, ls, n) := a in
    fin = mkIS r false /\ n = zlen (f L) /\ lists_ok ls (f L)).
Proof.
  intros E0 Hf (t1 & R1 & R2). set (gl := f L) in *. unfold new_lspace in E0. destruct (Z.ltb_spec (set_count s * sub) 0); [discriminate|]. injection E0 as <-.
  unfold local_loadGroups. cbn [ls_length ls_sub ls_map]. pose proof (zlen_nonneg gl).
  rewrite (extract_int _ _ _ R1). cbn [init bind]. destruct (Z.ltb_spec (zlen gl) 0); [lia|].
  eapply PostU_seq; [apply (for_rule_U _ (fun i (st : istream * list membership * list (group F64)) => let '(fin, m, groups) := st in
      (exists t', fin = mkIS t' false /\ reads reads_group t' (zskip i gl) r) /\ zlen m = set_count s * sub /\ zlen groups = i /\ tame m /\
      (forall k v cs c, k < i -> zget gl k = Ok (v, cs) -> In c cs -> inside c) /\
      forall k g v cs, zget groups k = Ok g -> zget gl k = Ok (v, cs) ->
        g = mkGroup F64 k (last cs (-1, -1)) L sub (zlen cs) (@mkTS F64 (@Owned F64 v) 0 0 L L None) /\
        ((forall k' v' cs', k < k' < i -> zget gl k' = Ok (v', cs') -> apart cs cs') -> last_links m k cs)))|]; [apply zlen_nonneg| | |].
  - split; [eauto|]. split; [now apply zrepeat_len|]. split; auto. split; [|split; [intros k v cs c Hk Hg; apply zget_inv in Hg; lia|intros k g v cs Hg; apply zget_inv in Hg as (Hr & _); unfold zlen in Hr; cbn in Hr; lia]].
    intros p e He. pose proof (zget_inv _ _ _ He) as (Hr & _). rewrite zrepeat_len in Hr by lia. rewrite zget_zrepeat in He by lia. injection He as <-. right. unfold inside, GroupProofs.cpos. cbn. lia.
  - intros i ((fin2 & m2) & gs2) Hi ((t2 & -> & A2) & Z2 & Zg & T2 & I2 & H2).
    destruct (zget_Ok gl i Hi) as ((v & cs) & Em). rewrite (zskip_get _ _ _ Em) in A2. cbn [reads] in A2. destruct A2 as (t3 & R3 & A3).
    assert (Hin : In (v, cs) gl) by (eapply zget_in; eauto).
    destruct (new_group F64 i L sub) as [g0| | |] eqn:Eg; [|unfold new_group, ts_new in Eg; destruct (Z.ltb_spec L 0); [lia|discriminate]..]. cbn [bind].
    destruct (loadGroup_spec v cs t2 t3 m2 i g0 R3 (Hf v cs Hin) Z2 T2 Eg) as [(E3 & c & X1 & X2)|P3]; [left; rewrite E3; cbn [bind]; split; auto; exists v, cs, c; auto|].
    destruct (Post_inv _ _ P3) as (((fin3 & m3) & g3) & E3 & Q3). rewrite E3. cbn [bind]. revert Q3. clear P3 E3. intros (-> & Z3 & -> & I3 & L3 & F3 & T3). right. apply Post_Ok. split; [eauto|]. split; [lia|]. split; [rewrite zlen_app; change (zlen [_]) with 1; lia|]. split; [exact T3|]. split.
    + intros k v' cs' c Hk Hg Hc. destruct (Z.eq_dec k i) as [->|Hn]; [|apply (I2 k v' cs'); auto; lia]. rewrite Em in Hg. injection Hg as <- <-. now apply I3.
    + intros k g v' cs' Hg Hk. apply zget_snoc_inv in Hg as [(Hr & Hg)|(-> & ->)].
      * destruct (H2 k g v' cs' Hg Hk) as (B1 & B2). split; auto. intros Hap. eapply last_links_frame; [|apply B2; intros k' v2 cs2 Hk'; apply Hap; lia].
        intros c Hc. apply F3. intros c' Hc' E. apply (Hap i v cs) with (c := c) (c' := c'); auto; change (num F64) with spec_float in *; lia.
      * rewrite Zg in Hk. rewrite Em in Hk. injection Hk as <- <-. rewrite Zg. auto.
  - intros ((fin2 & m2) & gs2) ((t2 & -> & A2) & Z2 & Zg & T2 & I2 & H2). right. apply Post_Ok. rewrite zskip_all in A2. cbn in A2. subst t2. do 2 (split; [reflexivity|]).
    unfold lists_ok. cbn [ls_length ls_sub ls_map ls_groups]. do 5 (split; [auto|]). split.
    + intros v cs c Hin Hc. apply in_zget in Hin as (k & Hk & Eg). apply (I2 k v cs); auto; lia.
    + intros k g v cs Hg Hk. destruct (H2 k g v cs Hg Hk) as (B1 & B2). split; auto. intros Hap. apply B2. intros k' v' cs' Hk'. apply Hap. lia.
Qed.

(** Lists without repetitions make chains. *)
Lemma last_cons {A} (a : A) l d : last (a :: l) d = last l a.
Proof. revert a d. induction l as [|b l IH]; intros a d; auto. change (last (a :: b :: l) d) with (last (b :: l) d). now rewrite IH, (IH b a). Qed.
Lemma chain_of m gi cs : forall p, (forall i c, zget cs i = Ok c -> zget m (cpos c) = Ok (mkMem (last (ztake i cs) p) (Some gi))) -> chain s L m gi p cs.
Proof.
  induction cs as [|a cs IH]; intros p H; cbn [chain]; auto. split; [exact (H 0 a eq_refl)|]. apply IH. intros i c Hi.
  pose proof (zget_inv _ _ _ Hi) as (R & Hn). specialize (H (i + 1) c). unfold ztake in H. replace (Z.to_nat (i + 1)) with (S (Z.to_nat i)) in H by lia. cbn [firstn] in H. rewrite last_cons in H.
  apply H. unfold zget. destruct (Z.ltb_spec (i + 1) 0); [lia|]. replace (Z.to_nat (i + 1)) with (S (Z.to_nat i)) by lia. cbn [nth_error]. now rewrite Hn.
Qed.
Lemma NoDup_zget {A} (l : list A) i j x : NoDup l -> zget l i = Ok x -> zget l j = Ok x -> i = j.
Proof.
  intros Hn Hi Hj. apply zget_inv in Hi as (Ri & Hi). apply zget_inv in Hj as (Rj & Hj). rewrite NoDup_nth_error in Hn. specialize (Hn (Z.to_nat i) (Z.to_nat j)). rewrite Hi, Hj in Hn.
  assert (Z.to_nat i = Z.to_nat j) by (apply Hn; auto; unfold zlen in Ri; lia). lia.
Qed.
Lemma lists_links ls gl : set_len s <= 2 ^ 30 -> lists_ok ls gl -> NoDup (concat (map snd gl)) -> (forall v cs, In (v, cs) gl -> forall c, In c cs -> valid s L c) -> links F64 s L ls (map snd gl).
Proof.
  intros Hlen (H1 & H2 & H3 & H4 & _ & H5 & H6) Hnd Hval.
  assert (Hval' : forall c, In c (concat (map snd gl)) -> valid s L c).
  { intros c Hc. apply in_concat in Hc as (l & Hl & Hc). apply in_map_iff in Hl as ((v & cs) & <- & Hin). eapply Hval; eauto. }
  unfold links. do 3 (split; [assumption|]). split; [unfold zlen in *; now rewrite map_length|]. split; [|split; auto].
  intros i g cs Hg Hc. assert (Hgl : exists v, zget gl i = Ok (v, cs)).
  { destruct (zget_inv _ _ _ Hc) as (R & Hn). rewrite nth_error_map in Hn. destruct (nth_error gl (Z.to_nat i)) as [(v & cs')|] eqn:E; [|discriminate]. cbn in Hn. injection Hn as ->. exists v.
    unfold zget. destruct (Z.ltb_spec i 0); [lia|]. now rewrite E. }
  destruct Hgl as (v & Hgl). destruct (H6 i g v cs Hg Hgl) as (-> & Hll). unfold grp_links. cbn [g_index g_last g_length g_sub g_count]. do 5 (split; [reflexivity|]).
  assert (Hin : In (v, cs) gl) by (eapply zget_in; eauto).
  apply chain_of. intros k c Hk. apply Hll; auto.
  - intros k' v' cs' Hk' Hg' c1 c2 Hc1 Hc2 E. assert (In2 : In (v', cs') gl) by (eapply zget_in; eauto). apply (cpos_inj s Hlen L HL) in E; [|exact (Hval _ _ Hin _ Hc1)|exact (Hval _ _ In2 _ Hc2)]. subst c2.
    apply zget_inv in Hg' as (_ & Hg'). apply zget_inv in Hgl as (R & Hgl). apply (map_nth_error snd) in Hg', Hgl. cbn [snd] in *. clear - Hk' R Hnd Hc1 Hc2 Hg' Hgl.
    apply nth_error_split in Hg' as (l1 & l2 & E & El). rewrite E in *. rewrite nth_error_app1 in Hgl by lia. rewrite concat_app in Hnd. cbn in Hnd.
    apply nth_error_In in Hgl. assert (H1 : In c1 (concat l1)) by (apply in_concat; eauto). apply in_split in Hc2 as (a1 & a2 & ->).
    rewrite <- app_assoc in Hnd. rewrite app_assoc in Hnd. cbn in Hnd. apply NoDup_remove_2 in Hnd. apply Hnd. apply in_or_app. left. apply in_or_app. now left.
  - intros i' c' Hi' Hc' E. apply (cpos_inj s Hlen L HL) in E; [|exact (Hval _ _ Hin _ (zget_in _ _ _ Hc'))|exact (Hval _ _ Hin _ (zget_in _ _ _ Hk))]. subst c'.
    assert (k = i') by exact (NoDup_zget cs k i' c (NoDup_part _ _ _ Hnd Hc) Hk Hc'). lia.
Qed.
End OneLength.

(** All lengths. *)
Lemma fold_add_app l l' : fold_right Z.add 0 (l ++ l') = fold_right Z.add 0 l + fold_right Z.add 0 l'.
Proof. induction l as [|x l IH]; cbn; auto. rewrite IH. lia. Qed.
Lemma total_next {A} (f : Z -> list A) n : 1 <= n -> group_total f (n + 1) = group_total f n + zlen (f (n + 1)).
Proof. intros H. unfold group_total. rewrite lengths_snoc, map_app, fold_add_app by auto. cbn. lia. Qed.
Definition loaded_spaces (f : Z -> list (list spec_float * list coord)) (sp : list (option (lspace F64))) : Prop :=
  zlen sp = set_len s + 1 /\ (forall L, 0 <= L < 2 -> L <= set_len s -> zget sp L = Ok None) /\
  forall L, 2 <= L <= set_len s -> exists ls, zget sp L = Ok (Some ls) /\ lists_ok L ls (f L).
Definition outside (f : Z -> list (list spec_float * list coord)) : Prop :=
  exists L v cs c, 2 <= L <= set_len s /\ In (v, cs) (f L) /\ In c cs /\ ~ inside L c.

Lemma global_load_spec k f r r1 r2 name r3 r4 : set_len s <= 2 ^ 30 ->
  getDistance (string_of_list_ascii name) = Ok k -> 0 <= set_len s + 1 -> (forall L v cs, 2 <= L <= set_len s -> In (v, cs) (f L) -> zlen v = L) ->
  first_int r 2 r1 -> first_int r1 (set_len s + 1) r2 -> first_word r2 name r3 -> reads (reads_length f) r3 (lengths (set_len s)) r4 ->
  PostU (outside f) (global_loadGroups F64 F64_IO s (mkIS r false)) (fun a =>
    exists sp, a = (mkGS F64 sp (string_of_list_ascii name) (Some k), inl (group_total f (set_len s))) /\ loaded_spaces f sp).
Proof.
  intros Hlen Ek Hl0 Hf R1 R2 R3 R4. unfold global_loadGroups. rewrite (extract_int _ _ _ R1), (extract_int _ _ _ R2), (extract_name _ _ _ R3), Ek.
  unfold resize_null. destruct (Z.ltb_spec (set_len s + 1) 0); [lia|]. cbn [init bind].
  change (2 <? 0) with false. cbv iota. change (int_max <? 2) with false. cbv iota. destruct (Z.ltb_spec (set_len s + 1) 0); [lia|].
  destruct (Z.ltb_spec int_max (set_len s + 1)); [unfold int_max in *; lia|].
  eapply PostU_seq; [apply (forb_rule_U _ (fun i (st : istream * list (option (lspace F64)) * (Z + exn)) => let '(fin, sp, r) := st in
        (exists t, fin = mkIS t false /\ reads (reads_length f) t (zskip (i - 2) (lengths (set_len s))) r4) /\ zlen sp = set_len s + 1 /\
        r = inl (group_total f (i - 1)) /\ (forall L, 0 <= L < 2 -> L <= set_len s -> zget sp L = Ok None) /\
        forall L, 2 <= L < i -> exists ls, zget sp L = Ok (Some ls) /\ lists_ok L ls (f L)))|].
  - split; [eauto|]. split; [now apply zrepeat_len|]. split; [reflexivity|]. split; [intros L HL HL'; apply zget_zrepeat; lia|]. intros L HL. lia.
  - intros L ((fin4 & sp4) & x4) HL ((t4 & -> & A4) & Z4 & -> & N4 & H4).
    assert (EL : zget (lengths (set_len s)) (L - 2) = Ok L).
    { unfold lengths. destruct (zget_Ok (map (fun k => 2 + Z.of_nat k) (seq 0 (Z.to_nat (set_len s - 1)))) (L - 2)) as (x & Ex).
      { unfold zlen. rewrite map_length, seq_length. lia. }
      rewrite Ex. f_equal. apply zget_inv in Ex as (_ & Ex). rewrite nth_error_map in Ex. destruct (nth_error (seq 0 _) _) as [y|] eqn:Ey; [|discriminate]. cbn [option_map] in Ex. assert (x = 2 + Z.of_nat y) by congruence.
      apply (nth_error_nth _ _ 0%nat) in Ey. rewrite seq_nth in Ey by lia. lia. }
    rewrite (zskip_get _ _ _ EL) in A4. cbn [reads] in A4. destruct A4 as (t5 & R5 & A5).
    destruct (new_lspace F64 s L) as [ls0| | |] eqn:E0; [|unfold new_lspace in E0; destruct (Z.ltb_spec (set_count s * (set_len s - L + 1)) 0); [nia|discriminate]..].
    cbn [bind].
    destruct (local_load_spec L ltac:(lia) f t4 t5 ls0 E0 (fun v cs Hin => Hf L v cs ltac:(lia) Hin) R5) as [(E5 & v & cs & c & X1 & X2 & X3)|P].
    { left. rewrite E5. cbn [catch bind]. split; auto. exists L, v, cs, c. split; [lia|auto]. }
    destruct (Post_inv _ _ P) as (((fin5 & ls5) & n5) & E5 & -> & -> & L5). rewrite E5. cbn [catch bind].
    destruct (zset_ex sp4 L (Some ls5)) as (sp5 & Es); [lia|]. rewrite Es. cbn [bind]. right. apply Post_Ok. eexists. split; [reflexivity|].
    split; [exists t5; split; auto; replace (L + 1 - 2) with (L - 2 + 1) by lia; exact A5|]. split; [now rewrite (zset_len _ _ _ _ Es)|].
    split. { do 1 f_equal. replace (L + 1 - 1) with ((L - 1) + 1) by lia. rewrite total_next by lia. now replace (L - 1 + 1) with L by lia. }
    split. { intros L' HL' HL2. rewrite (zget_zset_neq _ _ _ _ _ Es) by lia. now apply N4. }
    intros L' HL'. destruct (Z.eq_dec L L') as [<-|Hn'].
    + rewrite (zget_zset_eq _ _ _ _ Es). eauto.
    + rewrite (zget_zset_neq _ _ _ _ _ Es) by auto. apply H4. lia.
  - intros ((fin4 & sp4) & x4) (_ & Z4 & -> & N4 & H4). right. apply Post_Ok. exists sp4. split.
    + do 2 f_equal. destruct (Z.max_spec 2 (set_len s + 1)) as [(_ & ->)|(Hm & ->)]; [now replace (set_len s + 1 - 1) with (set_len s) by lia|].
      unfold group_total, lengths. now replace (Z.to_nat (set_len s - 1)) with 0%nat by lia.
    + split; auto. split; auto. intros L HL. apply H4. lia.
Qed.
End Loading.

(** ** Which doubles print without overflow. *)
Lemma rnd_abs_lt r : (Rabs r <= val (max_finite false))%R -> (Rabs (rnd r) < BIG)%R.
Proof.
  intros H. assert (F : fin64 (max_finite false)) by (split; [vm_compute; reflexivity|exact I]). pose proof (val_fin_bound _ F) as B.
  apply Rabs_le_inv in H as (H1 & H2). apply rnd_le in H1, H2. rewrite rnd_val in H2 by auto. unfold rnd in H1. rewrite round_NE_opp in H1. fold (rnd (val (max_finite false))) in H1.
  rewrite rnd_val in H1 by auto. change (round radix2 _ _ r) with (rnd r) in H1. apply Rabs_lt. lra.
Qed.
Lemma prints_6 x : fin64 x -> prints 6 x.
Proof.
  intros F. split; auto. pose proof (val_fin_bound x F) as B. destruct (Rle_or_lt 0 (val x)) as [H|H].
  - apply rnd_DMAX6. split; [|apply round10_6_max; lra]. unfold round10. assert (Hp : Prec_gt_0 6) by reflexivity. apply round_ge_generic; [typeclasses eauto|typeclasses eauto|apply generic_format_0|auto].
  - replace (val x) with (- - val x)%R by lra. rewrite round10_opp. unfold rnd. rewrite round_NE_opp, Rabs_Ropp. apply rnd_DMAX6. split; [|apply round10_6_max; lra].
    unfold round10. assert (Hp : Prec_gt_0 6) by reflexivity. apply round_ge_generic; [typeclasses eauto|typeclasses eauto|apply generic_format_0|lra].
Qed.
Definition DMAX16 : R := IZR (1797693134862315 * 10 ^ 293).
Lemma prints_16 x : fin64 x -> (Rabs (val x) <= DMAX16)%R -> prints 16 x.
Proof.
  intros F H. split; auto. assert (Hp : Prec_gt_0 16) by reflexivity.
  assert (E : DMAX16 = F2R (Float radix10 1797693134862315 293)).
  { unfold DMAX16, F2R. cbn [Fnum Fexp]. rewrite mult_IZR, bpow10_Z by lia. reflexivity. }
  assert (G : generic_format radix10 (FLX_exp 16) DMAX16).
  { rewrite E. apply generic_format_FLX. exists (Float radix10 1797693134862315 293); [reflexivity|]. cbn. lia. }
  assert (M : (Rabs (round10 16 (val x)) <= DMAX16)%R).
  { apply Rabs_le_inv in H as (H1 & H2). apply Rabs_le. unfold round10. split; [apply round_ge_generic|apply round_le_generic]; auto; try typeclasses eauto. now apply generic_format_opp. }
  apply rnd_abs_lt. apply Rle_trans with (1 := M). unfold DMAX16. cbn [val max_finite cond_Zopp]. unfold F2R. cbn [Fnum Fexp].
  change (bpow radix2 971) with (IZR (2 ^ 971)). rewrite <- mult_IZR. apply IZR_le. vm_compute. discriminate.
Qed.

(** ** The written text, read. *)
Definition rr (x : spec_float) : spec_float := match extract conv_double (mkIS (print_g 16 x ++ [sp]) false) with (_, Some y) => y | _ => x end.
Lemma rr_reads x ws rest : prints 16 x -> Forall white ws -> first_double (ws ++ dbl_text x ++ rest) (rr x) (sp :: rest) /\ reread 16 x (rr x).
Proof.
  intros (F & B) Hw. destruct (first_double_printed 16 [] x sp [] ltac:(lia) (Forall_nil _) white_sp F B) as (y & Dy & Fy).
  assert (E : rr x = y). { unfold rr. cbn [app] in Fy. now rewrite (extract_double _ _ _ Fy). }
  destruct (first_double_printed 16 ws x sp rest ltac:(lia) Hw white_sp F B) as (y' & Dy' & Fy'). rewrite (double_of_unique _ _ _ _ Dy' Dy) in Fy'. rewrite E. unfold dbl_text. rewrite <- app_assoc. auto.
Qed.
Lemma reads_flat {A B} (tx : A -> text) (R : text -> B -> text -> Prop) (F : A -> B) l :
  (forall a, In a l -> forall ws rest, Forall white ws -> exists ws', Forall white ws' /\ R (ws ++ tx a ++ rest) (F a) (ws' ++ rest)) ->
  forall ws rest, Forall white ws -> exists ws', Forall white ws' /\ reads R (ws ++ flat_map tx l ++ rest) (map F l) (ws' ++ rest).
Proof.
  induction l as [|a l IH]; intros H ws rest Hw; [exists ws; cbn; auto|].
  destruct (H a (or_introl eq_refl) ws (flat_map tx l ++ rest) Hw) as (w1 & W1 & R1).
  destruct (IH (fun x Hx => H x (or_intror Hx)) w1 rest W1) as (w2 & W2 & R2). exists w2. split; auto. cbn [flat_map map reads]. rewrite <- app_assoc. eauto.
Qed.
Lemma white_snoc ws c : Forall white ws -> white c -> Forall white (ws ++ [c]).
Proof. intros H Hc. apply Forall_app. auto. Qed.
Lemma white_one c : white c -> Forall white [c].
Proof. auto. Qed.
Definition file_groups (f : Z -> coord -> list spec_float) (gmf : Z -> list (list coord)) (L : Z) : list (list spec_float * list coord) :=
  map (fun ms => (map rr (f L (hd (0, 0) ms)), rev ms)) (gmf L).

Section Written.
Context (s : tset).
Hypothesis Hcnt : 0 <= set_count s < 2 ^ 31.
Hypothesis Hlen : set_len s <= 2 ^ 30.
Hypothesis Hsz : set_count s * set_len s < 2 ^ 31.

Section OneLength.
Context (L : Z).
Hypothesis HL : 1 <= L <= set_len s.
Local Notation sub := (set_len s - L + 1).
Local Notation cpos := (cpos s L).
Local Notation valid := (valid s L).
Lemma count_bound ms : NoDup ms -> (forall c, In c ms -> valid c) -> zlen ms <= set_count s * sub.
Proof.
  intros Hn Hv. assert (D : NoDup (map cpos ms)).
  { clear - Hn Hv HL Hlen. induction Hn as [|x ms Hx Hd IH]; [constructor|]. cbn. constructor.
    - intros Hin. apply in_map_iff in Hin as (y & E & Hy). apply Hx. rewrite <- (cpos_inj s Hlen L HL y x); auto; apply Hv; [now right|now left].
    - apply IH. intros c Hc. apply Hv. now right. }
  assert (I : incl (map cpos ms) (map Z.of_nat (seq 0 (Z.to_nat (set_count s * sub))))).
  { intros z Hz. apply in_map_iff in Hz as (c & <- & Hc). pose proof (cpos_range s L HL c (Hv c Hc)).
    apply in_map_iff. exists (Z.to_nat (cpos c)). split; [lia|]. apply in_seq. lia. }
  pose proof (NoDup_incl_length D I) as X. rewrite !map_length, seq_length in X. unfold zlen. nia.
Qed.
Lemma int_bound ms : NoDup ms -> (forall c, In c ms -> valid c) -> zlen ms < 2 ^ 31.
Proof. intros Hn Hv. pose proof (count_bound ms Hn Hv). nia. Qed.
Lemma coord_int c : valid c -> 0 <= fst c < 2 ^ 31 /\ 0 <= snd c < 2 ^ 31.
Proof. intros (A & B & C). lia. Qed.
Lemma coord_reads c ws rest : valid c -> Forall white ws -> exists ws', Forall white ws' /\ reads_coord (ws ++ coord_text c ++ rest) c (ws' ++ rest).
Proof.
  intros V Hw. destruct (coord_int c V) as (B1 & B2). exists [sp]. split; [apply white_one, white_sp|]. unfold coord_text. rewrite <- !app_assoc. cbn [app].
  exists (sp :: print_Z (snd c) ++ sp :: rest). split; [apply first_int_printed; auto using white_sp; lia|]. refine (first_int_printed [sp] (snd c) sp rest _ white_sp _); [apply white_one, white_sp|lia].
Qed.
Lemma group_reads v ms ws rest : Forall (prints 16) v -> NoDup ms -> (forall c, In c ms -> valid c) -> Forall white ws ->
  exists ws', Forall white ws' /\ reads_group (ws ++ group_text v ms ++ rest) (map rr v, rev ms) (ws' ++ rest).
Proof.
  intros Hp Hn Hv Hw. unfold group_text. rewrite <- !app_assoc.
  destruct (reads_flat dbl_text first_double rr v) with (ws := ws) (rest := [nl] ++ print_Z (zlen ms) ++ [sp] ++ flat_map coord_text (rev ms) ++ [nl] ++ rest) as (w1 & W1 & R1); auto.
  { intros x Hx w r Hw'. exists [sp]. split; [apply white_one, white_sp|]. apply rr_reads; auto. rewrite Forall_forall in Hp. auto. }
  destruct (reads_flat coord_text reads_coord (fun c => c) (rev ms)) with (ws := [sp]) (rest := [nl] ++ rest) as (w2 & W2 & R2); [|apply white_one, white_sp|].
  { intros c Hc w r Hw'. apply coord_reads; auto. apply Hv. now apply in_rev. }
  rewrite map_id in R2. exists (w2 ++ [nl]). split; [apply white_snoc; auto using white_nl|]. rewrite <- app_assoc.
  exists (w1 ++ [nl] ++ print_Z (zlen ms) ++ [sp] ++ flat_map coord_text (rev ms) ++ [nl] ++ rest), ([sp] ++ flat_map coord_text (rev ms) ++ [nl] ++ rest). cbn [fst snd].
  split; [exact R1|]. split; [|exact R2]. replace (zlen (rev ms)) with (zlen ms) by (unfold zlen; now rewrite rev_length).
  rewrite (app_assoc w1). apply first_int_printed; [apply white_snoc; auto using white_nl|apply white_sp|]. pose proof (int_bound ms Hn Hv). pose proof (zlen_nonneg ms). lia.
Qed.
Lemma local_reads f gmf ws rest : (forall ms, In ms (gmf L) -> NoDup ms /\ ms <> [] /\ forall c, In c ms -> valid c /\ Forall (prints 16) (f L c)) -> zlen (gmf L) < 2 ^ 31 -> Forall white ws ->
  exists ws', Forall white ws' /\ reads_length (file_groups f gmf) (ws ++ local_text (f L) (gmf L) ++ rest) L (ws' ++ rest).
Proof.
  intros H Hz Hw. unfold local_text. rewrite <- !app_assoc.
  destruct (reads_flat (fun ms => group_text (f L (hd (0, 0) ms)) ms) reads_group (fun ms => (map rr (f L (hd (0, 0) ms)), rev ms)) (gmf L)) with (ws := [nl]) (rest := rest) as (w1 & W1 & R1); [|apply white_one, white_nl|].
  { intros ms Hm w r Hw'. destruct (H ms Hm) as (H1 & H2 & H3). apply group_reads; auto; [|intros c Hc; now apply H3]. apply H3. now apply hd_in. }
  exists w1. split; auto. exists ([nl] ++ flat_map (fun ms => group_text (f L (hd (0, 0) ms)) ms) (gmf L) ++ rest). split; [|exact R1].
  unfold file_groups. replace (zlen (map _ (gmf L))) with (zlen (gmf L)) by (unfold zlen; now rewrite map_length). apply first_int_printed; auto using white_nl. pose proof (zlen_nonneg (gmf L)). lia.
Qed.
End OneLength.

Lemma file_reads thr name f gmf : fin64 thr -> name <> [] -> Forall (fun c => ~ white c) name -> 0 <= set_len s + 1 ->
  (forall L, 2 <= L <= set_len s -> zlen (gmf L) < 2 ^ 31 /\ forall ms, In ms (gmf L) -> NoDup ms /\ ms <> [] /\ forall c, In c ms -> valid s L c /\ Forall (prints 16) (f L c)) ->
  exists thr2, reread 6 thr thr2 /\
    group_file ((print_Z 1 ++ [sp] ++ print_g 6 thr ++ [sp] ++ print_Z (set_count s) ++ [sp] ++ print_Z (set_len s) ++ [nl]) ++ file_text (string_of_list_ascii name) f gmf (set_len s))
      thr2 (set_count s) (set_len s) name (file_groups f gmf).
Proof.
  intros Ft Hn Hnw Hl0 H. unfold file_text. unfold T_. rewrite list_ascii_of_string_of_list_ascii. rewrite <- !app_assoc. cbn [app].
  set (r3 := spaces_text f gmf (set_len s)). set (r2 := name ++ nl :: r3). set (r1 := print_Z (set_len s + 1) ++ nl :: r2). set (r := print_Z 2 ++ sp :: r1).
  destruct (first_double_printed 6 [sp] thr sp (print_Z (set_count s) ++ sp :: print_Z (set_len s) ++ nl :: r) ltac:(lia) (white_one _ white_sp) white_sp Ft (proj2 (prints_6 thr Ft))) as (thr2 & D & F2).
  exists thr2. split; [exact D|]. destruct (reads_flat (fun L => local_text (f L) (gmf L)) (reads_length (file_groups f gmf)) (fun L => L) (lengths (set_len s))) with (ws := [nl]) (rest := @nil ascii) as (w & W & R4); [|apply white_one, white_nl|].
  { intros L HL ws rest Hw. apply lengths_in in HL. destruct (H L HL) as (H1 & H2). apply local_reads; auto. lia. }
  rewrite map_id, app_nil_r in R4. fold (spaces_text f gmf (set_len s)) in R4. fold r3 in R4.
  exists (nl :: r), (sp :: r1), (nl :: r2), (nl :: r3). eexists. split; [|split; [|split; [|split; [|exact R4]]]].
  - exists (sp :: print_g 6 thr ++ sp :: print_Z (set_count s) ++ sp :: print_Z (set_len s) ++ nl :: r), (sp :: print_Z (set_count s) ++ sp :: print_Z (set_len s) ++ nl :: r), (sp :: print_Z (set_len s) ++ nl :: r).
    split; [refine (first_int_printed [] 1 sp _ (Forall_nil _) white_sp _); lia|]. split; [exact F2|].
    split; [refine (first_int_printed [sp] (set_count s) sp _ (white_one _ white_sp) white_sp _); lia|refine (first_int_printed [sp] (set_len s) nl _ (white_one _ white_sp) white_nl _); lia].
  - refine (first_int_printed [nl] 2 sp _ (white_one _ white_nl) white_sp _); lia.
  - refine (first_int_printed [sp] (set_len s + 1) nl _ (white_one _ white_sp) white_nl _); lia.
  - exists [nl]. split; [reflexivity|]. split; [apply white_one, white_nl|]. split; auto. split; auto. right. exists nl, r3. split; auto using white_nl.
Qed.
End Written.

(** ** Walks that do not end. *)
Lemma while_endless {S} (I : S -> Prop) cond (body : S -> outcome S) : (forall t, I t -> cond t = Ok true /\ Post (body t) I) ->
  forall fuel s, I s -> while_ fuel cond body s = NoFuel.
Proof.
  intros H. induction fuel as [|fuel IH]; intros s HI; destruct (H s HI) as (E & P); cbn [while_]; rewrite E; cbn [bind]; auto.
  destruct (Post_inv _ _ P) as (t & -> & Ht). cbn [bind]. auto.
Qed.
Lemma while_never {S} (I : S -> Prop) cond (body : S -> outcome S) : (forall t, I t -> cond t = Ok true /\ forall t', body t = Ok t' -> I t') ->
  forall fuel s r, I s -> while_ fuel cond body s <> Ok r.
Proof.
  intros H. induction fuel as [|fuel IH]; intros s r HI; destruct (H s HI) as (E & P); cbn [while_]; rewrite E; cbn [bind]; [discriminate|].
  destruct (body s) as [t| | |] eqn:Eb; cbn [bind]; try discriminate. apply IH. now apply P.
Qed.
Lemma while_or_hang {S} (I : S -> Prop) cond (body : S -> outcome S) : (forall t, I t -> exists b, cond t = Ok b /\ (b = true -> Post (body t) I)) ->
  forall fuel s, I s -> while_ fuel cond body s = NoFuel \/ exists t, while_ fuel cond body s = Ok t.
Proof.
  intros H. induction fuel as [|fuel IH]; intros s HI; destruct (H s HI) as ([] & E & P); cbn [while_]; rewrite E; cbn [bind]; eauto.
  destruct (Post_inv _ _ (P eq_refl)) as (t & -> & Ht). cbn [bind]. auto.
Qed.
Lemma coord_dec (c c' : coord) : {c = c'} + {c <> c'}.
Proof. decide equality; apply Z.eq_dec. Qed.
Lemma dup_places (cs : list coord) : ~ NoDup cs -> exists a b x, a < b /\ zget cs a = Ok x /\ zget cs b = Ok x.
Proof.
  assert (Sh : forall (x : coord) l i y, zget l i = Ok y -> zget (x :: l) (i + 1) = Ok y).
  { intros x l i y H. pose proof (zget_inv _ _ _ H) as (R & Hn). unfold zget. destruct (Z.ltb_spec (i + 1) 0); [lia|]. replace (Z.to_nat (i + 1)) with (S (Z.to_nat i)) by lia. cbn [nth_error]. now rewrite Hn. }
  induction cs as [|x cs IH]; intros H; [exfalso; apply H; constructor|]. destruct (in_dec coord_dec x cs) as [Hin|Hn].
  - apply in_zget in Hin as (i & Hi & E). exists 0, (i + 1), x. split; [lia|]. split; auto.
  - destruct IH as (a & b & y & Hab & E1 & E2); [intros Hd; apply H; now constructor|]. exists (a + 1), (b + 1), y. split; [lia|]. auto.
Qed.
Lemma last_place (cs : list coord) : forall i0 x, zget cs i0 = Ok x -> exists i, i0 <= i /\ zget cs i = Ok x /\ forall i', i < i' -> zget cs i' <> Ok x.
Proof.
  induction cs as [|y cs IH] using rev_ind; intros i0 x H; [apply zget_inv in H as (R & _); unfold zlen in R; cbn in R; lia|].
  destruct (coord_dec y x) as [->|Hn].
  - exists (zlen cs). pose proof (zget_inv _ _ _ H) as (R & _). rewrite zlen_app in R. change (zlen [x]) with 1 in R. split; [lia|]. split; [rewrite zget_app_r by lia; now rewrite Z.sub_diag|].
    intros i' Hi E. apply zget_inv in E as (E & _). rewrite zlen_app in E. change (zlen [x]) with 1 in E. lia.
  - apply zget_snoc_inv in H as [(R & H)|(_ & H)]; [|congruence]. destruct (IH _ _ H) as (i & Hi & E & Hl). exists i. split; auto. pose proof (zget_inv _ _ _ E) as (Ri & _). split; [now rewrite zget_app_l by lia|].
    intros i' Hi' E'. apply zget_snoc_inv in E' as [(_ & E')|(_ & E')]; [|congruence]. now apply (Hl i').
Qed.

Lemma owned_read h (v : list (num F64)) L : 1 <= L -> zlen v = L -> ts_read F64 h (@mkTS F64 (@Owned F64 v) 0 0 L L None) = Ok v.
Proof.
  intros HL Hv. unfold ts_read. cbn [ts_src ts_start ts_len]. unfold window. destruct (Z.leb_spec L 0); [lia|]. cbn [Z.ltb Z.compare orb]. destruct (Z.ltb_spec (zlen v) (0 + L)); [lia|]. f_equal.
  unfold zslice. cbn [Z.to_nat skipn]. replace (Z.to_nat L) with (List.length v) by (unfold zlen in Hv; lia). apply firstn_all.
Qed.

Section Endless.
Context (s : tset) (b : nat).
Hypothesis Hb : set_buf s = Some b.
Hypothesis Hlen : set_len s <= 2 ^ 30.
Context (L : Z).
Hypothesis HL : 1 <= L <= set_len s.
Local Notation sub := (set_len s - L + 1).
Local Notation cpos := (cpos s L).
Local Notation valid := (valid s L).

Lemma dup_walk m gi cs : last_links s L m gi cs -> (forall c, In c cs -> valid c) -> ~ NoDup cs ->
  exists J : coord -> Prop, J (last cs (-1, -1)) /\ (forall c, J c -> In c cs /\ exists e, zget m (cpos c) = Ok e /\ J (mem_prev e)).
Proof.
  intros Hll Hval Hd. destruct (dup_places cs Hd) as (a & b' & x & Hab & Ea & Eb).
  exists (fun c => exists i, zget cs i = Ok c /\ a < i /\ forall i', i < i' -> zget cs i' <> Ok c). split.
  - pose proof (zget_inv _ _ _ Eb) as (Rb & _). pose proof (zget_inv _ _ _ Ea) as (Ra & _). destruct (zget_Ok cs (zlen cs - 1)) as (y & Ey); [lia|]. pose proof (ztake_get _ _ _ Ey) as Et.
    replace (zlen cs - 1 + 1) with (zlen cs) in Et by lia. rewrite ztake_all in Et. exists (zlen cs - 1). rewrite Et at 1. rewrite Et at 4. rewrite last_last, <- Et.
    split; auto. split; [lia|]. intros i' Hi' E. apply zget_inv in E. lia.
  - intros c (i & Ei & Hi & Hl). split; [eapply zget_in; eauto|]. exists (mkMem (last (ztake i cs) (-1, -1)) (Some gi)). split.
    + apply Hll; auto. intros i' c' Hi' Ec' E. apply (cpos_inj s Hlen L HL) in E; [|exact (Hval _ (zget_in _ _ _ Ec'))|exact (Hval _ (zget_in _ _ _ Ei))]. subst c'. now apply (Hl i').
    + cbn [mem_prev]. pose proof (zget_inv _ _ _ Ea) as (Ra & _). pose proof (zget_inv _ _ _ Ei) as (Ri & _). destruct (zget_Ok cs (i - 1)) as (y & Ey); [lia|]. pose proof (ztake_get _ _ _ Ey) as Et.
      replace (i - 1 + 1) with i in Et by lia. rewrite Et, last_last. destruct (Z.eq_dec (i - 1) a) as [E|Hn].
      * replace y with x by congruence. destruct (last_place cs b' x Eb) as (j & Hj & Ej & Hlj). exists j. split; auto. split; auto. lia.
      * destruct (last_place cs (i - 1) y Ey) as (j & Hj & Ej & Hlj). exists j. split; auto. split; auto. lia.
Qed.

Lemma dup_group ls gl k g v cs h out : lists_ok s L ls gl -> zget (ls_groups F64 ls) k = Ok g -> zget gl k = Ok (v, cs) ->
  (forall c, In c cs -> valid c) -> (forall k' v' cs', k < k' -> zget gl k' = Ok (v', cs') -> forall c, In c cs' -> valid c /\ ~ In c cs) -> ~ NoDup cs ->
  (forall n, exists c, back (ls_map F64 ls) sub n (g_last F64 g) = Ok c /\ In c cs) /\
  getMembers F64 s (ls_map F64 ls) g = NoFuel /\ (forall ratio q r, group_getBestMatch F64 h ratio s (ls_map F64 ls) g q <> Ok r) /\
  (zlen v = L -> bind (saveGroup F64 F64_IO h (ls_map F64 ls) g) out = (NoFuel : outcome text)).
Proof.
  intros (_ & _ & _ & _ & _ & _ & H) Hg Hk Hval Hap Hd. destruct (H k g v cs Hg Hk) as (-> & Hll). clear H Hg.
  assert (Hl : last_links s L (ls_map F64 ls) k cs).
  { apply Hll. intros k' v' cs' Hk' E c c' Hc Hc' Ec. destruct (Hap k' v' cs' Hk' E c' Hc') as (V & N). apply (cpos_inj s Hlen L HL) in Ec; auto. now subst c'. }
  destruct (dup_walk _ _ _ Hl Hval Hd) as (J & J0 & JS). clear Hll Hl. cbn [g_last g_length g_sub g_count].
  assert (Jc : forall c, J c -> negb (fst c =? -1) = true).
  { intros c Hc. destruct (Hval c (proj1 (JS c Hc))) as (V & _). destruct (Z.eqb_spec (fst c) (-1)); [lia|reflexivity]. }
  assert (Jp : forall c, J c -> exists c', prev_of (ls_map F64 ls) sub c = Ok c' /\ J c').
  { intros c Hc. destruct (JS c Hc) as (_ & e & E & He). exists (mem_prev e). split; auto. unfold prev_of. change (fst c * sub + snd c) with (cpos c). now rewrite E. }
  split; [|split; [|split]].
  - intros n. assert (X : forall c, J c -> exists c', back (ls_map F64 ls) sub n c = Ok c' /\ J c').
    { induction n as [|n IH]; intros c Hc; [cbn; eauto|]. cbn [back]. destruct (JS c Hc) as (_ & e & E & He). change (fst c * sub + snd c) with (cpos c). rewrite E. cbn [bind]. auto. }
    destruct (X _ J0) as (c & E & Hc). exists c. split; auto. now apply JS.
  - unfold getMembers. cbn [g_last g_length g_sub].
    rewrite (while_endless (fun st : coord * list (ts F64) => J (fst st))); auto. intros (cur & acc) Hc. cbn [fst] in *. rewrite (Jc _ Hc). split; auto.
    rewrite (get_view F64 s b Hb L HL cur (Hval cur (proj1 (JS cur Hc)))). cbn [bind]. destruct (Jp cur Hc) as (c' & -> & Hc'). cbn [bind]. now apply Post_Ok.
  - intros ratio q r E. unfold group_getBestMatch in E. cbn [g_last g_length g_sub] in E.
    destruct (while_ _ _ _ _) as [x| | |] eqn:Ew in E; cbn [bind] in E; try discriminate. revert Ew.
    apply (while_never (fun st : match_state F64 => let '(cur, _, _, _) := st in J cur)); auto. intros (((cur & bd) & bm) & q') Hc. rewrite (Jc _ Hc). split; auto.
    intros (((cur' & bd') & bm') & q2) Eb. unfold group_match_body in Eb. cbn [g_length g_sub] in Eb. rewrite (get_view F64 s b Hb L HL cur (Hval cur (proj1 (JS cur Hc)))) in Eb. cbn [bind] in Eb.
    destruct (cascade_ts _ _ _ _ _ _) as [((q3 & y) & d)| | |]; cbn [bind] in Eb; try discriminate. destruct (Jp cur Hc) as (c' & Ep & Hc'). rewrite Ep in Eb.
    assert (Ec : c' = cur') by (destruct (nltb F64 d bd); cbn [bind] in Eb; congruence). now rewrite <- Ec.
  - intros Hv. unfold saveGroup, printData. cbn [g_centroid g_count g_last g_sub]. rewrite owned_read by (auto; lia). cbn [bind].
    rewrite (while_endless (fun st : coord * text => J (fst st))); auto. intros (cur & acc) Hc. cbn [fst] in *. rewrite (Jc _ Hc). split; auto. destruct (Jp cur Hc) as (c' & -> & Hc'). cbn [bind]. now apply Post_Ok.
Qed.
Lemma save_or_hang ls gl k g v cs h : lists_ok s L ls gl -> zget (ls_groups F64 ls) k = Ok g -> zget gl k = Ok (v, cs) -> zlen v = L ->
  saveGroup F64 F64_IO h (ls_map F64 ls) g = NoFuel \/ exists t, saveGroup F64 F64_IO h (ls_map F64 ls) g = Ok t.
Proof.
  intros (_ & _ & Hz & _ & Ht & Hin & H) Hg Hk Hv. destruct (H k g v cs Hg Hk) as (-> & _). clear H.
  unfold saveGroup, printData. cbn [g_centroid g_count g_last g_sub]. rewrite owned_read by (auto; lia). cbn [bind].
  set (w := while_ _ _ _ _). assert (X : w = NoFuel \/ exists t, w = Ok t).
  { unfold w. apply (while_or_hang (fun st : coord * text => fst st = (-1, -1) \/ inside s L (fst st))).
    - intros (cur & acc) Hc. cbn [fst] in *. eexists. split; [reflexivity|]. intros Hne. destruct Hc as [->|Hc]; [discriminate Hne|].
      unfold prev_of. change (fst cur * sub + snd cur) with (cpos cur). destruct (zget_Ok (ls_map F64 ls) (cpos cur)) as (e & E); [rewrite Hz; exact Hc|]. rewrite E. cbn [bind]. apply Post_Ok. cbn [fst]. eauto.
    - cbn [fst]. destruct cs as [|c cs]; [left; reflexivity|right]. apply (Hin v (c :: cs)); [eapply zget_in; eauto|]. apply last_in'. discriminate. }
  destruct X as [->|((c & t) & ->)]; cbn [bind]; eauto.
Qed.

Lemma local_hang ls gl h : lists_ok s L ls gl -> (forall v cs, In (v, cs) gl -> zlen v = L) ->
  (local_saveGroups F64 F64_IO h ls false = NoFuel \/ exists t, local_saveGroups F64 F64_IO h ls false = Ok t) /\
  forall k g, zget (ls_groups F64 ls) k = Ok g -> saveGroup F64 F64_IO h (ls_map F64 ls) g = NoFuel -> local_saveGroups F64 F64_IO h ls false = NoFuel.
Proof.
  intros Hl Hv. unfold local_saveGroups. set (body := fun g out => _). generalize (print_Z (zlen (ls_groups F64 ls)) ++ [nl]) as out.
  assert (X : forall g, In g (ls_groups F64 ls) -> saveGroup F64 F64_IO h (ls_map F64 ls) g = NoFuel \/ exists t, saveGroup F64 F64_IO h (ls_map F64 ls) g = Ok t).
  { intros g Hg. apply in_zget in Hg as (k & Hk & E). pose proof Hl as (_ & _ & _ & Hz & _). destruct (zget_Ok gl k) as ((v & cs) & Eg); [lia|].
    refine (save_or_hang ls gl k g v cs h Hl E Eg _). eapply Hv. eapply zget_in; eauto. }
  intros out. split.
  - revert X out. induction (ls_groups F64 ls) as [|g gs IH]; intros X out; cbn [for_each]; [eauto|]. unfold body at 1 3.
    destruct (X g (or_introl eq_refl)) as [->|(t & ->)]; cbn [bind]; auto. apply IH. intros g' Hg'. apply X. now right.
  - intros k g Hg Hs. apply zget_in in Hg. revert X out Hg. induction (ls_groups F64 ls) as [|g' gs IH]; intros X out Hg; [destruct Hg|]. cbn [for_each]. unfold body at 1.
    destruct (X g' (or_introl eq_refl)) as [->|(t & Et)]; cbn [bind]; auto. rewrite Et. cbn [bind]. apply IH; [intros g2 Hg2; apply X; now right|]. destruct Hg as [->|Hg]; auto. congruence.
Qed.
End Endless.
Lemma global_hang s f gs h L ls k g : loaded_spaces s f (gs_spaces F64 gs) -> sized (set_len s) f -> 2 <= L <= set_len s -> zget (gs_spaces F64 gs) L = Ok (Some ls) ->
  zget (ls_groups F64 ls) k = Ok g -> saveGroup F64 F64_IO h (ls_map F64 ls) g = NoFuel -> global_saveGroups F64 F64_IO h gs false = NoFuel.
Proof.
  intros (Hz & _ & Hsp) Hsz HL Els Hg Hs. unfold global_saveGroups. rewrite Hz. set (out := print_Z 2 ++ _).
  assert (X : forall n i out, 2 <= i <= L -> L < i + Z.of_nat n -> i + Z.of_nat n <= set_len s + 1 -> loop n i (fun i out => o <- zget (gs_spaces F64 gs) i ;;
      match o with None => UB NullDeref | Some ls => t <- local_saveGroups F64 F64_IO h ls false ;; Ok (out ++ t) end) out = NoFuel).
  { induction n as [|n IH]; intros i o Hi Hn Hm; [lia|]. cbn [loop]. destruct (Hsp i ltac:(lia)) as (ls' & E & Hl). rewrite E. cbn [bind].
    destruct (local_hang s i ltac:(lia) ls' (f i) h Hl (fun v cs Hin => Hsz i v cs ltac:(lia) Hin)) as (X1 & X2). destruct (Z.eq_dec i L) as [->|Hne].
    - rewrite Els in E. injection E as <-. now rewrite (X2 k g Hg Hs).
    - destruct X1 as [->|(t & ->)]; cbn [bind]; auto. apply IH; lia. }
  unfold for_. apply X; lia.
Qed.
