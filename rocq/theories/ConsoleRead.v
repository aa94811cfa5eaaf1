(** * Reading the console back: the texts determine what they report. *)
From Coq Require Import ZArith Bool Lia Ascii String List.
From Verif Require Import Outcome Num Lemire Distance TimeSeries Text Dataset Groups Api DecSpec NumSpec FileSpec PrintProofs Cli CliSpec Console ConsoleSpec ConsoleLines.
Import ListNotations.
Open Scope Z_scope.

Lemma split_unique (Q : ascii -> Prop) x : forall y c d s t, Forall Q x -> Forall Q y -> ~ Q c -> ~ Q d -> x ++ c :: s = y ++ d :: t -> x = y /\ c :: s = d :: t.
Proof.
  induction x as [|a x IH]; intros [|b y] c d s t Hx Hy Hc Hd E; cbn [app] in E; auto.
  - injection E as -> _. inversion Hy; subst. contradiction.
  - injection E as <- _. inversion Hx; subst. contradiction.
  - injection E as <- E. inversion Hx; subst. inversion Hy; subst. destruct (IH y c d s t) as (-> & Es); auto.
Qed.
Definition numeric (c : ascii) : Prop := digit c \/ c = "-"%char \/ c = "+"%char.
Lemma int_text_inj t a b : int_text t a -> int_text t b -> a = b.
Proof.
  intros (n1 & s1 & d1 & -> & S1 & N1 & D1 & ->) (n2 & s2 & d2 & E & S2 & N2 & D2 & ->).
  assert (Nd : forall c ds, digits_only (c :: ds) -> c <> "-"%char /\ c <> "+"%char) by (intros c ds H; inversion H as [|? ? Hc _]; subst; unfold digit in Hc; split; intros ->; cbn in Hc; lia).
  destruct n1, n2; cbn in S1, S2.
  - subst. injection E as ->. auto.
  - subst. destruct S2 as [->| ->]; cbn in E; [|discriminate]. subst d2. now destruct (Nd _ _ D2).
  - subst. destruct S1 as [->| ->]; cbn in E; [|discriminate]. subst d1. now destruct (Nd _ _ D1).
  - destruct S1 as [->| ->], S2 as [->| ->]; cbn in E.
    + now subst.
    + subst d1. now destruct (Nd _ _ D1).
    + subst d2. now destruct (Nd _ _ D2).
    + now injection E as ->.
Qed.
Lemma print_Z_inj a b : print_Z a = print_Z b -> a = b.
Proof. intros E. apply (int_text_inj (print_Z a)); [apply print_Z_spec|rewrite E; apply print_Z_spec]. Qed.
Lemma print_split a b c d s t : ~ numeric c -> ~ numeric d -> print_Z a ++ c :: s = print_Z b ++ d :: t -> a = b /\ c :: s = d :: t.
Proof.
  intros Hc Hd E. apply (split_unique numeric) in E as (E & Es); auto; try apply print_Z_chars. split; auto. now apply print_Z_inj.
Qed.
Lemma sp_numeric : ~ numeric " "%char.
Proof. intros [H|[H|H]]; try discriminate. unfold digit in H. cbn in H. lia. Qed.
Lemma dot_numeric : ~ numeric "."%char.
Proof. intros [H|[H|H]]; try discriminate. unfold digit in H. cbn in H. lia. Qed.

(** ** The line of a match *)
Lemma match_text_inj i s l d i' s' l' d' : match_text i s l d = match_text i' s' l' d' -> i = i' /\ s = s' /\ l = l' /\ d = d'.
Proof.
  unfold match_text. intros E. apply app_inv_head in E.
  apply print_split in E as (-> & E); try apply sp_numeric. change (T_ " starting at " ++ print_Z s ++ T_ " with length " ++ print_Z l ++ T_ ". Distance = " ++ d ++ [nl] = T_ " starting at " ++ print_Z s' ++ T_ " with length " ++ print_Z l' ++ T_ ". Distance = " ++ d' ++ [nl]) in E.
  apply app_inv_head in E. apply print_split in E as (-> & E); try apply sp_numeric.
  change (T_ " with length " ++ print_Z l ++ T_ ". Distance = " ++ d ++ [nl] = T_ " with length " ++ print_Z l' ++ T_ ". Distance = " ++ d' ++ [nl]) in E.
  apply app_inv_head in E. apply print_split in E as (-> & E); try apply dot_numeric.
  change (T_ ". Distance = " ++ d ++ [nl] = T_ ". Distance = " ++ d' ++ [nl]) in E. apply app_inv_head in E. apply app_inv_tail in E. auto.
Qed.

(** ** The lines of the list *)
Lemma line_split s t x y : one_line s -> one_line t -> s ++ nl :: x = t ++ nl :: y -> s = t /\ x = y.
Proof.
  intros Hs Ht E. apply (split_unique (fun c => c <> nl)) in E as (-> & E); auto.
  - split; auto. now injection E.
  - apply Forall_forall. intros c Hc ->. auto.
  - apply Forall_forall. intros c Hc ->. auto.
Qed.
Lemma app_inj_tail_length {A} (s t x y : list A) : length x = length y -> s ++ x = t ++ y -> s = t /\ x = y.
Proof.
  revert t. induction s as [|a s IH]; intros [|b t] L E; cbn [app] in E; auto.
  - subst. cbn in L. rewrite app_length in L. lia.
  - subst. cbn in L. rewrite app_length in L. lia.
  - injection E as <- E. destruct (IH _ L E) as (-> & ->). auto.
Qed.
Definition list_body (i : info) : text :=
  T_ "  " ++ (print_Z (i_id i) ++ repeat sp (Z.to_nat (4 - zlen (print_Z (i_id i))))) ++ T_ " " ++ T_ (i_name i) ++
  ["009"%char] ++ pad 10 (T_ (if i_normalized i then "Normalized" else "")) ++ ["009"%char] ++ pad 10 (T_ (if i_grouped i then "Grouped" else "")).
Lemma list_line_body i : list_line i = list_body i ++ [nl].
Proof. unfold list_line, list_body, pad, endl. now rewrite <- !app_assoc. Qed.
Lemma flag_length b s : In s ["Normalized"; "Grouped"]%string -> length (pad 10 (T_ (if b : bool then s else ""))) = 10%nat.
Proof. intros [<-|[<-|[]]]; destruct b; reflexivity. Qed.
Lemma list_body_inj i j : list_body i = list_body j -> i_id i = i_id j /\ i_name i = i_name j /\ i_normalized i = i_normalized j /\ i_grouped i = i_grouped j.
Proof.
  unfold list_body. intros E. apply app_inv_head in E. rewrite <- !app_assoc in E.
  assert (P : i_id i = i_id j).
  { assert (G : forall n r, exists r', repeat sp n ++ T_ " " ++ r = " "%char :: r') by (intros [|n] r; cbn; eauto).
    match type of E with print_Z _ ++ repeat sp ?n ++ T_ " " ++ ?r = print_Z _ ++ repeat sp ?m ++ T_ " " ++ ?r' => destruct (G n r) as (x & Ex); destruct (G m r') as (y & Ey); rewrite Ex, Ey in E end.
    apply print_split in E; [tauto| |]; apply sp_numeric. }
  rewrite P in E. do 3 apply app_inv_head in E.
  apply app_inj_tail_length in E as (En & E).
  2: { rewrite !app_length, !flag_length by (cbn; auto). reflexivity. }
  apply app_inv_head in E. apply app_inj_tail_length in E as (E1 & E2).
  2: { rewrite !app_length, !flag_length by (cbn; auto). reflexivity. }
  apply app_inv_head in E2. repeat split; auto.
  - unfold T_ in En. apply (f_equal string_of_list_ascii) in En. now rewrite !string_of_list_ascii_of_string in En.
  - destruct (i_normalized i), (i_normalized j); auto; discriminate E1.
  - destruct (i_grouped i), (i_grouped j); auto; discriminate E2.
Qed.
Lemma list_body_one_line i : one_line (T_ (i_name i)) -> one_line (list_body i).
Proof.
  intros H. unfold list_body. repeat (apply one_line_app; split); auto using print_Z_one_line, spaces_one_line; try (apply literal_one_line; reflexivity);
    try (apply literal_one_line; destruct (i_normalized i); reflexivity); try (apply literal_one_line; destruct (i_grouped i); reflexivity); intros [X|[]]; discriminate X.
Qed.
Lemma show_list_inj l l' : (forall i, In i l \/ In i l' -> one_line (T_ (i_name i))) -> show_list l = show_list l' -> map shown l = map shown l'.
Proof.
  intros H E. unfold show_list in E. apply app_inv_head in E. apply print_split in E as (El & E); try apply sp_numeric.
  change (T_ " loaded datasets" ++ endl ++ endl ++ flat_map list_line l = T_ " loaded datasets" ++ endl ++ endl ++ flat_map list_line l') in E.
  do 3 apply app_inv_head in E. assert (L : length l = length l') by (unfold zlen in El; lia). clear El.
  revert l' L H E. induction l as [|i l IH]; intros [|j l'] L H E; try discriminate; auto. cbn [flat_map map] in *. rewrite !list_line_body in E. rewrite <- !app_assoc in E.
  apply line_split in E as (Eb & E); [|apply list_body_one_line; apply H; cbn; auto..].
  apply list_body_inj in Eb as (E1 & E2 & E3 & E4). unfold shown at 1 3. rewrite E1, E2, E3, E4. f_equal. apply IH; auto. intros x Hx. apply H. cbn. tauto.
Qed.

(** ** Doubles print as one line. *)
Lemma print_g_one_line p x : 1 <= p -> one_line (io_print F64_IO p x).
Proof.
  intros Hp. cbn [io_print F64_IO]. assert (Dt : forall t neg m e, dec_text t neg m e -> one_line t).
  { intros t neg m e H Hn. apply (dec_text_chars _ _ _ _ _ H) in Hn as [Hn|Hn]; [unfold digit in Hn; cbn in Hn; lia|]. cbn in Hn. repeat destruct Hn as [Hn|Hn]; try discriminate. contradiction. }
  destruct x as [s|s| |s m e]; cbn [print_g].
  - destruct s; apply (literal_one_line "-0") || apply (literal_one_line "0"); reflexivity.
  - destruct s; apply (literal_one_line "-inf") || apply (literal_one_line "inf"); reflexivity.
  - apply (literal_one_line "nan"). reflexivity.
  - pose proof (frac_val m e) as Fv. destruct (fin_frac m e) as [n d]. destruct Fv as (Hn & Hd & Ev).
    pose proof (round_dec_spec p n d Hp Hn Hd) as R. destruct (round_dec p n d) as [q X]. destruct R as (Hq & Er).
    destruct (print_dec_spec p q X s Hp Hq) as (m' & e' & T & _). eapply Dt; eauto.
Qed.
