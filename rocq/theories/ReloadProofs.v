(** * Saving groups that may have been loaded from a file. *)
From Coq Require Import ZArith Bool Lia SpecFloat Ascii String List.
From Verif Require Import Outcome Num Lemire Distance TimeSeries Text Dataset Groups Api Laws F64Base DecSpec NumSpec GroupFileSpec.
From Verif Require Import DecProofs PrintProofs StreamProofs SaveProofs TsProofs GroupSpec GroupProofs GlobalGroup MatchProofs SimProofs SessionProofs SessionMatch GroupFileProofs RepMatch LoadedMatch LoadedSpec RepIndep ReloadSpec.
Import ListNotations.
Open Scope Z_scope.

Local Notation gl_t := (list (list spec_float * list coord)).
Definition rlocal_text (gl : gl_t) : text := print_Z (zlen gl) ++ [nl] ++ flat_map (fun g => group_text (fst g) (snd g)) gl.
Definition rspaces_text (gf : Z -> gl_t) (n : Z) : text := flat_map (fun L => rlocal_text (gf L)) (lengths n).
Definition rfile_text (name : string) (gf : Z -> gl_t) (n : Z) : text :=
  print_Z 2 ++ [sp] ++ print_Z (n + 1) ++ [nl] ++ T_ name ++ [nl] ++ rspaces_text gf n.

Section Saving.
Context (h : heap F64) (s : tset) (b : nat).
Hypothesis Hlen : set_len s <= 2 ^ 30.

Lemma rsaveGroup_text L ls (gl : gl_t) gi v cs g : 1 <= L <= set_len s -> lists F64 h s b L ls gl -> zget gl gi = Ok (v, cs) -> zget (ls_groups F64 ls) gi = Ok g ->
  saveGroup F64 F64_IO h (ls_map F64 ls) g = Ok (group_text v cs).
Proof.
  intros HL H Hi Hg. pose proof (zget_map snd _ _ _ Hi) as Hi'. cbn [snd] in Hi'. pose proof H as (Hk & Hr).
  destruct (links_get F64 s L ls (map snd gl) gi cs Hk Hi') as (g' & Eg & G1 & G2 & G3 & G4 & G6 & _). rewrite Hg in Eg. injection Eg as <-.
  destruct (Hr gi g v cs Hg Hi) as (Rv & _).
  unfold saveGroup, printData. rewrite Rv. cbn [bind]. rewrite G4.
  set (out0 := _ ++ _). set (w := while_ _ _ _ _).
  assert (P : Post w (fun st => snd st = out0 ++ flat_map coord_text (rev cs))).
  { unfold w. eapply Post_conseq; [eapply (walk_links F64 s Hlen L HL ls (map snd gl) gi cs _ _ fst (fun rem st => exists r2, cs = rem ++ r2 /\ snd st = out0 ++ flat_map coord_text (rev r2))); eauto|].
    - exists []. rewrite app_nil_r. split; auto. cbn. now rewrite app_nil_r.
    - intros rem c (cur, acc) _ (r2 & Er & Ea) Ecur Vc Hp. cbn [fst snd] in *. subst cur acc.
      rewrite G3. rewrite Hp. cbn [bind]. apply Post_Ok. cbn [fst snd].
      split; auto. exists (c :: r2). rewrite <- app_assoc in Er. split; auto. cbn [rev]. rewrite flat_map_snoc. rewrite <- app_assoc. reflexivity.
    - intros st (r2 & E0 & E1). cbn in E0. subst r2. exact E1. }
  destruct (Post_inv _ _ P) as ((cur & acc) & -> & Ea). cbn [snd bind] in *. rewrite Ea. unfold out0, group_text, dbl_text. cbn [io_print F64_IO]. now rewrite <- !app_assoc.
Qed.
Lemma rlocal_text_saved L ls (gl : gl_t) : 1 <= L <= set_len s -> lists F64 h s b L ls gl ->
  local_saveGroups F64 F64_IO h ls false = Ok (rlocal_text gl).
Proof.
  intros HL H. pose proof (lists_len F64 h s b L ls gl H) as Hz. unfold local_saveGroups. rewrite Hz.
  set (f := fun g : list spec_float * list coord => group_text (fst g) (snd g)).
  assert (P : Post (for_each (ls_groups F64 ls) (fun g out => t <- saveGroup F64 F64_IO h (ls_map F64 ls) g ;; Ok (out ++ t)) (print_Z (zlen gl) ++ [nl]))
    (fun out => out = rlocal_text gl)).
  { eapply Post_conseq; [apply (for_each_rule (fun done out => out = (print_Z (zlen gl) ++ [nl]) ++ flat_map f (ztake (zlen done) gl)) _ (ls_groups F64 ls) [])|].
    - cbn. now rewrite app_nil_r.
    - intros pre g post out E ->. cbn [app].
      assert (Eg : zget (ls_groups F64 ls) (zlen pre) = Ok g).
      { rewrite E. rewrite zget_app_r by lia. now rewrite Z.sub_diag. }
      destruct (zget_Ok gl (zlen pre)) as ((v & cs) & Em). { apply zget_inv in Eg. change (num F64) with spec_float in *. lia. }
      rewrite (rsaveGroup_text L ls gl (zlen pre) v cs g HL H Em Eg). cbn [bind]. apply Post_Ok.
      rewrite zlen_app. change (zlen [g]) with 1. rewrite (ztake_get gl (zlen pre) (v, cs) Em), flat_map_snoc. now rewrite <- !app_assoc.
    - intros out ->. cbn [app]. change (num F64) with spec_float in *. rewrite Hz, ztake_all. unfold rlocal_text. now rewrite <- app_assoc. }
  destruct (Post_inv _ _ P) as (out & E & ->). exact E.
Qed.
Lemma rglobal_text_saved gf gs : rspaces F64 h s b gf (gs_spaces F64 gs) ->
  global_saveGroups F64 F64_IO h gs false = Ok (rfile_text (gs_name F64 gs) gf (set_len s)).
Proof.
  intros (Hz & Hsp). unfold global_saveGroups. rewrite Hz. set (out0 := print_Z 2 ++ _).
  assert (P : Post (for_ 2 (set_len s + 1) (fun i out => o <- zget (gs_spaces F64 gs) i ;;
      match o with None => UB NullDeref | Some ls => t <- local_saveGroups F64 F64_IO h ls false ;; Ok (out ++ t) end) out0)
    (fun out => out = out0 ++ rspaces_text gf (set_len s))).
  { eapply Post_conseq; [apply (for_rule (fun i out => out = out0 ++ rspaces_text gf (i - 1)))|].
    - cbn. now rewrite app_nil_r.
    - intros L out HL ->. destruct (Hsp L ltac:(lia)) as (ls & E & H). rewrite E. cbn [bind].
      rewrite (rlocal_text_saved L ls (gf L)) by (auto; lia). cbn [bind]. apply Post_Ok. unfold rspaces_text.
      replace (L + 1 - 1) with ((L - 1) + 1) by lia. rewrite lengths_snoc by lia. rewrite flat_map_snoc, <- app_assoc. replace (L - 1 + 1) with L by lia. reflexivity.
    - intros out ->. f_equal. destruct (Z.max_spec 2 (set_len s + 1)) as [(_ & ->)|(Hm & ->)]; [f_equal; lia|].
      unfold rspaces_text, lengths. now replace (Z.to_nat (set_len s - 1)) with 0%nat by lia. }
  destruct (Post_inv _ _ P) as (out & -> & ->). unfold out0, rfile_text. now rewrite <- !app_assoc.
Qed.
End Saving.

Definition rfile_groups (gf : Z -> gl_t) (L : Z) : gl_t := map (fun g => (map rr (fst g), rev (snd g))) (gf L).
Section Written.
Context (s : tset).
Hypothesis Hcnt : 0 <= set_count s < 2 ^ 31.
Hypothesis Hlen : set_len s <= 2 ^ 30.
Hypothesis Hsz : set_count s * set_len s < 2 ^ 31.

Lemma rlocal_reads L gf ws rest : 1 <= L <= set_len s -> (forall v cs, In (v, cs) (gf L) -> NoDup cs /\ (forall c, In c cs -> valid s L c) /\ Forall (prints 16) v) -> zlen (gf L) < 2 ^ 31 -> Forall white ws ->
  exists ws', Forall white ws' /\ reads_length (rfile_groups gf) (ws ++ rlocal_text (gf L) ++ rest) L (ws' ++ rest).
Proof.
  intros HL H Hz Hw. unfold rlocal_text. rewrite <- !app_assoc.
  destruct (reads_flat (fun g : list spec_float * list coord => group_text (fst g) (snd g)) reads_group (fun g => (map rr (fst g), rev (snd g))) (gf L)) with (ws := [nl]) (rest := rest) as (w1 & W1 & R1); [|apply white_one, white_nl|].
  { intros (v, cs) Hm w r Hw'. destruct (H v cs Hm) as (H1 & H2 & H3). apply (group_reads s Hcnt Hlen Hsz L HL v cs); auto. }
  exists w1. split; auto. exists ([nl] ++ flat_map (fun g => group_text (fst g) (snd g)) (gf L) ++ rest). split; [|exact R1].
  unfold rfile_groups. replace (zlen (map _ (gf L))) with (zlen (gf L)) by (unfold zlen; now rewrite map_length). apply first_int_printed; auto using white_nl. pose proof (zlen_nonneg (gf L)). lia.
Qed.
Lemma rfile_reads thr name gf : fin64 thr -> name <> [] -> Forall (fun c => ~ white c) name -> 0 <= set_len s + 1 ->
  (forall L, 2 <= L <= set_len s -> zlen (gf L) < 2 ^ 31 /\ forall v cs, In (v, cs) (gf L) -> NoDup cs /\ (forall c, In c cs -> valid s L c) /\ Forall (prints 16) v) ->
  exists thr2, reread 6 thr thr2 /\
    group_file ((print_Z 1 ++ [sp] ++ print_g 6 thr ++ [sp] ++ print_Z (set_count s) ++ [sp] ++ print_Z (set_len s) ++ [nl]) ++ rfile_text (string_of_list_ascii name) gf (set_len s))
      thr2 (set_count s) (set_len s) name (rfile_groups gf).
Proof.
  intros Ft Hn Hnw Hl0 H. unfold rfile_text. unfold T_. rewrite list_ascii_of_string_of_list_ascii. rewrite <- !app_assoc. cbn [app].
  set (r3 := rspaces_text gf (set_len s)). set (r2 := name ++ nl :: r3). set (r1 := print_Z (set_len s + 1) ++ nl :: r2). set (r := print_Z 2 ++ sp :: r1).
  destruct (first_double_printed 6 [sp] thr sp (print_Z (set_count s) ++ sp :: print_Z (set_len s) ++ nl :: r) ltac:(lia) (white_one _ white_sp) white_sp Ft (proj2 (prints_6 thr Ft))) as (thr2 & D & F2).
  exists thr2. split; [exact D|]. destruct (reads_flat (fun L => rlocal_text (gf L)) (reads_length (rfile_groups gf)) (fun L => L) (lengths (set_len s))) with (ws := [nl]) (rest := @nil ascii) as (w & W & R4); [|apply white_one, white_nl|].
  { intros L HL ws rest Hw. apply lengths_in in HL. destruct (H L HL) as (H1 & H2). apply rlocal_reads; auto. lia. }
  rewrite map_id, app_nil_r in R4. fold (rspaces_text gf (set_len s)) in R4. fold r3 in R4.
  exists (nl :: r), (sp :: r1), (nl :: r2), (nl :: r3). eexists. split; [|split; [|split; [|split; [|exact R4]]]].
  - exists (sp :: print_g 6 thr ++ sp :: print_Z (set_count s) ++ sp :: print_Z (set_len s) ++ nl :: r), (sp :: print_Z (set_count s) ++ sp :: print_Z (set_len s) ++ nl :: r), (sp :: print_Z (set_len s) ++ nl :: r).
    split; [refine (first_int_printed [] 1 sp _ (Forall_nil _) white_sp _); lia|]. split; [exact F2|].
    split; [refine (first_int_printed [sp] (set_count s) sp _ (white_one _ white_sp) white_sp _); lia|refine (first_int_printed [sp] (set_len s) nl _ (white_one _ white_sp) white_nl _); lia].
  - refine (first_int_printed [nl] 2 sp _ (white_one _ white_nl) white_sp _); lia.
  - refine (first_int_printed [sp] (set_len s + 1) nl _ (white_one _ white_sp) white_nl _); lia.
  - exists [nl]. split; [reflexivity|]. split; [apply white_one, white_nl|]. split; auto. split; auto. right. exists nl, r3. split; auto using white_nl.
Qed.
End Written.
