(** * Specification of group files: their header, and groups restored from a file.

    [double_of] is defined in NumSpec.v, [round10] in DecSpec.v, [sub_values] in GroupSpec.v. *)
From Coq Require Import ZArith Reals SpecFloat Ascii List.
From Flocq Require Import Core BinarySingleNaN.
From Verif Require Import Outcome Num TimeSeries Dataset Groups F64Base DecSpec NumSpec GroupSpec.
Import ListNotations.
Open Scope Z_scope.

(** The first four words: version, threshold, item count and item length; [r] is the rest. *)
Definition header (t : list ascii) (version : Z) (thr : spec_float) (cnt len : Z) (r : list ascii) : Prop :=
  exists r1 r2 r3, first_int t version r1 /\ first_double r1 thr r2 /\ first_int r2 cnt r3 /\ first_int r3 len r.

(** The items [l] follow each other in the text [t], [r] is the rest; [R] says how one item is written. *)
Fixpoint reads {A} (R : list ascii -> A -> list ascii -> Prop) (t : list ascii) (l : list A) (r : list ascii) : Prop :=
  match l with
  | [] => t = r
  | a :: l' => exists t', R t a t' /\ reads R t' l' r
  end.
(** A member: series index and start. *)
Definition reads_coord (t : list ascii) (c : coord) (r : list ascii) : Prop :=
  exists t', first_int t (fst c) t' /\ first_int t' (snd c) r.
(** A group: the values of the representative, the number of members, the members. *)
Definition reads_group (t : list ascii) (g : list spec_float * list coord) (r : list ascii) : Prop :=
  exists t1 t2, reads first_double t (fst g) t1 /\ first_int t1 (zlen (snd g)) t2 /\ reads reads_coord t2 (snd g) r.
(** The groups of length [L]: their number and the groups. *)
Definition reads_length (f : Z -> list (list spec_float * list coord)) (t : list ascii) (L : Z) (r : list ascii) : Prop :=
  exists t1, first_int t (zlen (f L)) t1 /\ reads reads_group t1 (f L) r.
(** The lengths from 2 to [n]. *)
Definition lengths (n : Z) : list Z := map (fun k => 2 + Z.of_nat k) (seq 0 (Z.to_nat (n - 1))).
(** [t] is a group file: the header, the first length 2 and the bound [len + 1], the name of the distance, and for
    each length [L] the groups [f L]. *)
Definition group_file (t : list ascii) (thr : spec_float) (cnt len : Z) (name : list ascii) (f : Z -> list (list spec_float * list coord)) : Prop :=
  exists r r1 r2 r3 r4, header t 1 thr cnt len r /\ first_int r 2 r1 /\ first_int r1 (len + 1) r2 /\ first_word r2 name r3 /\
    reads (reads_length f) r3 (lengths len) r4.
(** The number of groups of all lengths from 2 to [n]. *)
Definition group_total {A} (f : Z -> list A) (n : Z) : Z := fold_right Z.add 0 (map (fun L => zlen (f L)) (lengths n)).
(** Every representative has the length of its group. *)
Definition sized (len : Z) (f : Z -> list (list spec_float * list coord)) : Prop :=
  forall L v cs, 2 <= L <= len -> In (v, cs) (f L) -> zlen v = L.
(** Every member is a subsequence of a dataset of [cnt] series of length [len]. *)
Definition members_exist (cnt len : Z) (f : Z -> list (list spec_float * list coord)) : Prop :=
  forall L v cs c, 2 <= L <= len -> In (v, cs) (f L) -> In c cs -> is_sub cnt len L c.
(** No member is listed twice, neither in one group nor in two groups of one length. *)
Definition listed_once (len : Z) (f : Z -> list (list spec_float * list coord)) : Prop :=
  forall L, 2 <= L <= len -> NoDup (concat (map snd (f L))).
(** Some member's place in the table of all [cnt] * ([len] - [L] + 1) subsequences is outside the table. *)
Definition member_outside (cnt len : Z) (f : Z -> list (list spec_float * list coord)) : Prop :=
  exists L v cs c, 2 <= L <= len /\ In (v, cs) (f L) /\ In c cs /\ ~ 0 <= fst c * (len - L + 1) + snd c < cnt * (len - L + 1).
(** The member reached after following [n] links backwards from [c]. *)
Fixpoint back (m : list membership) (sub : Z) (n : nat) (c : coord) : outcome coord :=
  match n with
  | O => Ok c
  | S n => e <- zget m (fst c * sub + snd c) ;; back m sub n (mem_prev e)
  end.

(** The group space [gs] of a set with the values [data] holds for length [L] the groups [gl]: as many groups, each with the
    representative, the member count and the members of the list (listed with the last member first). *)
Definition holds (h : heap F64) (s : tset) (data : list spec_float) (gs : gspace F64) (L : Z) (gl : list (list spec_float * list coord)) : Prop :=
  exists ls, zget (gs_spaces F64 gs) L = Ok (Some ls) /\ getNumberOfGroups F64 ls = zlen gl /\
    forall k g v cs, getGroup F64 ls k = Ok g -> zget gl k = Ok (v, cs) ->
      g_count F64 g = zlen cs /\ ts_read F64 h (g_centroid F64 g) = Ok v /\
      exists l, getMembers F64 s (ls_map F64 ls) g = Ok l /\ map (fun t => (ts_index t, ts_start t)) l = rev cs /\
        forall t, In t l -> ts_len t = L /\ ts_read F64 h t = Ok (sub_values F64 data (set_len s) L (ts_index t, ts_start t)).

(** [y] is [x] after printing with [P] significant digits and reading; the same for lists. *)
Definition reread (P : Z) (x y : spec_float) : Prop := double_of y (sign_SF x) (round10 P (val x)).
Definition rereads (P : Z) (v v' : list spec_float) : Prop :=
  zlen v' = zlen v /\ forall k x y, zget v k = Ok x -> zget v' k = Ok y -> reread P x y.
(** A finite double whose [P] digits do not read as an infinity. *)
Definition prints (P : Z) (x : spec_float) : Prop := fin64 x /\ (Rabs (rnd (round10 P (val x))) < bpow radix2 1024)%R.
(** The groups [gl] are the groups [gm] of a dataset with the values [data] and length [len] (lists of members, the first one
    being the origin of the representative): as many groups, the same members in reverse order, and the representatives reread. *)
Definition written (data : list spec_float) (len L : Z) (gm : list (list coord)) (gl : list (list spec_float * list coord)) : Prop :=
  zlen gl = zlen gm /\ forall k ms v cs, zget gm k = Ok ms -> zget gl k = Ok (v, cs) ->
    cs = rev ms /\ rereads 16 (sub_values F64 data len L (hd (0, 0) ms)) v.
