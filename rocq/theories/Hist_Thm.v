(** C36: the histogram counts every datum in exactly its bin. *)
From Coq Require Import SpecFloat.
From Verif Require Import Base Hist_Model.

(** * Specification *)

(** the values handed to the histogram since the last reset *)
Fixpoint data_since_reset {T} (acc : list T) (ops : list (hist_op T)) : list T :=
  match ops with
  | [] => acc
  | OpCount d :: t => data_since_reset (acc ++ d) t
  | OpReset :: t => data_since_reset [] t
  end.

(** [lt] is the strict part of a total order and [ge] its complement *)
Definition total_order {T} (lt ge : T -> T -> bool) : Prop :=
  (forall a b, ge a b = negb (lt a b)) /\
  (forall a b c, lt a b = false -> lt b c = false -> lt a c = false).

Definition ascending {T} (lt : T -> T -> bool) (st : list T) : Prop :=
  forall i j d, i <= j -> j < length st -> lt (nth j st d) (nth i st d) = false.

Section Proofs.
Variable T : Type.
Variables (lt ge : T -> T -> bool).
Hypothesis Hord : total_order lt ge.

Lemma ge_lt a b : ge a b = negb (lt a b).
Proof. apply Hord. Qed.

(** bin i of [st] contains [x] *)
Definition in_bin (st : list T) (x : T) (i : nat) (d : T) : bool :=
  negb (lt x (nth i st d)) && lt x (nth (i + 1) st d).

Lemma bin_search_ok d st x : forall fuel lower upper,
  upper <= length st -> lower < upper -> upper - lower <= fuel ->
  lt x (nth lower st d) = false ->
  (upper = length st \/ lt x (nth upper st d) = true) ->
  exists i, bin_search T ge fuel st x lower upper = Ok i /\ i < length st /\
    lt x (nth i st d) = false /\
    (i + 1 = length st \/ lt x (nth (i + 1) st d) = true).
Proof using Hord.
  induction fuel as [|fuel IH]; intros lower upper Hu Hl Hf L U.
  - exfalso. lia.
  - cbn [bin_search]. destruct (Nat.ltb_spec 1 (upper - lower)) as [H|H].
    + set (mid := (upper + lower) / 2).
      assert (Hm : lower < mid < upper).
      { unfold mid. split.
        - apply Nat.div_le_lower_bound; lia.
        - apply Nat.div_lt_upper_bound; lia. }
      clearbody mid.
      rewrite (vget_ok st mid d) by lia. cbn [bind].
      rewrite ge_lt. destruct (lt x (nth mid st d)) eqn:E; cbn [negb].
      * apply IH; auto; lia.
      * apply IH; auto; lia.
    + exists lower. replace (lower + 1) with upper by lia. splits; auto. lia.
Qed.

Lemma find_bin_ok d h x :
  2 <= length (h_stations h) ->
  exists b, find_bin T lt ge h x = Ok b /\
    match b with
    | Some i => i < length (h_stations h) - 1 /\ in_bin (h_stations h) x i d = true
    | None => lt x (nth 0 (h_stations h) d) = true \/
              lt x (nth (length (h_stations h) - 1) (h_stations h) d) = false
    end.
Proof using Hord.
  intros Hn. unfold find_bin. cbv zeta.
  rewrite (vget_ok _ 0 d) by lia. cbn [bind].
  destruct (lt x (nth 0 (h_stations h) d)) eqn:E0; [eexists; split; [reflexivity|cbn; auto]|].
  rewrite usub_ok by lia. cbn [bind].
  rewrite (vget_ok _ _ d) by lia. cbn [bind].
  rewrite ge_lt.
  destruct (lt x (nth (length (h_stations h) - 1) (h_stations h) d)) eqn:E1; cbn [negb];
    [|eexists; split; [reflexivity|cbn; auto]].
  destruct (bin_search_ok d (h_stations h) x (length (h_stations h)) 0 (length (h_stations h)))
    as (i & Hi & Li & A & B); try lia; auto.
  rewrite Hi. cbn [bind]. eexists; split; [reflexivity|].
  assert (i <> length (h_stations h) - 1) by (intros ->; congruence).
  split; [lia|]. unfold in_bin. rewrite A. destruct B as [B|B]; [lia|]. now rewrite B.
Qed.

Lemma in_bin_unique d st x i j : ascending lt st ->
  i + 1 < length st -> j + 1 < length st ->
  in_bin st x i d = true -> in_bin st x j d = true -> i = j.
Proof using Hord.
  intros S Hi Hj A B. unfold in_bin in A, B.
  apply andb_prop in A. apply andb_prop in B. destruct A as [A1 A2], B as [B1 B2].
  apply negb_true_iff in A1, B1.
  destruct (Nat.lt_trichotomy i j) as [H|[H|H]]; auto; exfalso.
  - assert (lt x (nth (i + 1) st d) = false); [|congruence].
    apply (proj2 Hord) with (nth j st d); auto. apply S; lia.
  - assert (lt x (nth (j + 1) st d) = false); [|congruence].
    apply (proj2 Hord) with (nth i st d); auto. apply S; lia.
Qed.

Lemma out_no_bin d st x i : ascending lt st -> 2 <= length st -> i + 1 < length st ->
  (lt x (nth 0 st d) = true \/ lt x (nth (length st - 1) st d) = false) ->
  in_bin st x i d = false.
Proof using Hord.
  intros S Hn Hi H. unfold in_bin. destruct (lt x (nth i st d)) eqn:A; auto; cbn [negb andb].
  destruct H as [H|H].
  - assert (lt x (nth 0 st d) = false); [|congruence].
    apply (proj2 Hord) with (nth i st d); auto. apply S; lia.
  - apply (proj2 Hord) with (nth (length st - 1) st d); auto. apply S; lia.
Qed.

Definition counted (st : list T) (d : T) (i : nat) (data : list T) : nat :=
  length (filter (fun x => in_bin st x i d) data).

Lemma hist_count_ok d : forall data h acc, ascending lt (h_stations h) -> 2 <= length (h_stations h) ->
  length (h_counts h) = length (h_stations h) - 1 ->
  (forall i, i < length (h_counts h) -> nth i (h_counts h) 0 = counted (h_stations h) d i acc) ->
  exists h', hist_count T lt ge h data = Ok h' /\ h_stations h' = h_stations h /\
    length (h_counts h') = length (h_counts h) /\
    (forall i, i < length (h_counts h') -> nth i (h_counts h') 0 = counted (h_stations h) d i (acc ++ data)).
Proof using Hord.
  intros data. unfold hist_count.
  induction data as [|x data IH]; intros h acc S Hn L C.
  - exists h. cbn [for_each]. rewrite app_nil_r. auto.
  - cbn [for_each].
    destruct (find_bin_ok d h x Hn) as (b & E & B). rewrite E. cbn [bind].
    assert (A : forall i, counted (h_stations h) d i (acc ++ x :: data) =
                          counted (h_stations h) d i ((acc ++ [x]) ++ data))
      by (intros; now rewrite <- app_assoc).
    assert (A1 : forall i, counted (h_stations h) d i (acc ++ [x]) =
       counted (h_stations h) d i acc + (if in_bin (h_stations h) x i d then 1 else 0)).
    { intros. unfold counted. rewrite filter_app, app_length. cbn [filter].
      destruct (in_bin (h_stations h) x i d); cbn [length]; lia. }
    destruct b as [k|].
    + destruct B as [Bk Bb].
      rewrite (vget_ok _ _ 0) by lia. cbn [bind]. rewrite vset_ok by lia. cbn [bind].
      destruct (IH (mkHist (h_stations h) (upd (h_counts h) k (nth k (h_counts h) 0 + 1))) (acc ++ [x]))
        as (h' & E' & S' & L' & C'); cbn [h_stations h_counts]; auto.
      * now rewrite upd_length.
      * intros i Hi. rewrite upd_length in Hi. rewrite A1.
        destruct (Nat.eq_dec i k) as [->|Hne].
        -- rewrite nth_upd_eq by auto. rewrite Bb, C by auto. lia.
        -- rewrite nth_upd_ne by auto. rewrite C by auto.
           destruct (in_bin (h_stations h) x i d) eqn:F; [|lia].
           exfalso. apply Hne. eapply (in_bin_unique d (h_stations h) x); eauto; lia.
      * exists h'. splits; auto.
        -- rewrite L'. cbn. apply upd_length.
        -- intros i Hi. rewrite A. now apply C'.
    + destruct (IH h (acc ++ [x])) as (h' & E' & S' & L' & C'); auto.
      * intros i Hi. rewrite A1, C by auto.
        rewrite (out_no_bin d) by (auto; lia). lia.
      * exists h'. splits; auto. intros i Hi. rewrite A. now apply C'.
Qed.

Lemma hist_reset_ok h :
  exists h', hist_reset T h = Ok h' /\ h_stations h' = h_stations h /\
    length (h_counts h') = length (h_counts h) /\
    forall i, i < length (h_counts h') -> nth i (h_counts h') 0 = 0.
Proof using Type.
  unfold hist_reset.
  destruct (for_range_inv (fun k (g : hist T) => h_stations g = h_stations h /\
      length (h_counts g) = length (h_counts h) /\
      forall i, i < k -> nth i (h_counts g) 0 = 0)
    (fun i h0 => cs <- vset (h_counts h0) i 0;; Ok (mkHist (h_stations h0) cs))
    0 (length (h_counts h)) h) as (h' & E & A & B & C).
  - lia.
  - splits; auto. intros; lia.
  - intros i g Hi (A & B & C). rewrite vset_ok by lia. cbn [bind].
    eexists; split; [reflexivity|]. cbn [h_stations h_counts]. splits; auto.
    + now rewrite upd_length.
    + intros j Hj. destruct (Nat.eq_dec j i) as [->|].
      * apply nth_upd_eq. lia.
      * rewrite nth_upd_ne by auto. apply C. lia.
  - exists h'. splits; auto. intros i Hi. apply C. lia.
Qed.

(** C36: whatever the history of `count` and `reset` calls, no call panics, the stations never change, and
    the count of bin [i] is the number of values given since the last reset with
    stations[i] <= x < stations[i+1]; values outside of all the bins are not counted anywhere. *)
Theorem C36_histogram : forall (st : list T) (ops : list (hist_op T)) (d : T),
  ascending lt st -> 2 <= length st ->
  exists h0 h, hist_new T st = Ok h0 /\ hist_run T lt ge ops h0 = Ok h /\
    h_stations h = st /\ length (h_counts h) = length st - 1 /\
    forall i, i < length st - 1 ->
      nth i (h_counts h) 0 =
      length (filter (fun x => negb (lt x (nth i st d)) && lt x (nth (i + 1) st d))
                     (data_since_reset [] ops)).
Proof using Hord.
  intros st ops d S Hn. unfold hist_new.
  destruct (Nat.ltb_spec (length st) 2) as [H|_]; [lia|].
  assert (G : forall ops h acc, h_stations h = st -> length (h_counts h) = length st - 1 ->
    (forall i, i < length (h_counts h) -> nth i (h_counts h) 0 = counted st d i acc) ->
    exists h', hist_run T lt ge ops h = Ok h' /\ h_stations h' = st /\ length (h_counts h') = length st - 1 /\
      forall i, i < length st - 1 -> nth i (h_counts h') 0 = counted st d i (data_since_reset acc ops)).
  { clear ops. induction ops as [|o ops IH]; intros h acc A B C.
    - exists h. unfold hist_run. cbn. splits; auto. intros. apply C. lia.
    - unfold hist_run. cbn [for_each]. destruct o as [data|].
      + destruct (hist_count_ok d data h acc) as (h' & E & A' & B' & C'); rewrite ?A; auto.
        rewrite E. cbn [bind data_since_reset]. apply IH; try congruence.
        intros i Hi. rewrite C' by auto. now rewrite A.
      + destruct (hist_reset_ok h) as (h' & E & A' & B' & C').
        rewrite E. cbn [bind data_since_reset]. apply IH; try congruence.
        intros i Hi. rewrite C' by auto. reflexivity. }
  destruct (G ops (mkHist st (repeat 0 (length st - 1))) []) as (h & E & A & B & C); auto.
  - apply repeat_length.
  - intros i _. cbn. apply nth_repeat_d.
  - exists (mkHist st (repeat 0 (length st - 1))), h. splits; auto.
Qed.

(** fewer than two stations are rejected *)
Theorem C36_new_rejects : forall st : list T, length st < 2 ->
  exists msg, hist_new T st = Err msg.
Proof using Type.
  intros st H. unfold hist_new. destruct (Nat.ltb_spec (length st) 2); [eauto|lia].
Qed.

(** no order on the stations is needed for this half: a counted value is in the bin that receives it,
    and no search goes out of range *)
Theorem C36_bin_contains : forall (st : list T) cs x d, 2 <= length st ->
  exists b, find_bin T lt ge (mkHist st cs) x = Ok b /\
    forall i, b = Some i -> i + 1 < length st /\
      lt x (nth i st d) = false /\ lt x (nth (i + 1) st d) = true.
Proof using Hord.
  intros st cs x d Hn. destruct (find_bin_ok d (mkHist st cs) x Hn) as (b & E & B).
  exists b. split; auto. intros i ->. cbn [h_stations] in B. destruct B as [B1 B2].
  unfold in_bin in B2. apply andb_prop in B2. destruct B2 as [B2 B3].
  apply negb_true_iff in B2. splits; auto. lia.
Qed.

End Proofs.

(** ** Findings *)

(** f64 comparisons: every comparison with NaN is false *)
Definition f64_lt (a b : spec_float) : bool := SFltb a b.
Definition f64_ge (a b : spec_float) : bool := SFleb b a.

Definition f64_0 := S754_zero false.
Definition f64_1 := S754_finite false 4503599627370496 (-52).
Definition f64_2 := S754_finite false 4503599627370496 (-51).

(** a NaN is not in [0, 1) and not in [1, 2), yet `count` adds it to the first bin *)
Theorem C36_nan_refuted :
  exists h0 h, hist_new spec_float [f64_0; f64_1; f64_2] = Ok h0 /\
    hist_count spec_float f64_lt f64_ge h0 [S754_nan] = Ok h /\ h_counts h = [1; 0] /\
    forall a, f64_ge S754_nan a = false.
Proof. do 2 eexists. splits; try reflexivity. intros a. destruct a as [[]|[]| |[]]; reflexivity. Qed.

(** with stations that are not ascending, `new` succeeds and a value inside a bin can be missed *)
Theorem C36_unsorted_refuted :
  exists st x h0 h, hist_new nat st = Ok h0 /\
    hist_count nat Nat.ltb (fun a b => b <=? a) h0 [x] = Ok h /\
    (nth 1 st 0 <= x < nth 2 st 0) /\ nth 1 (h_counts h) 0 = 0.
Proof. exists [5; 1; 9; 2], 4. do 2 eexists. splits; try reflexivity; cbn; lia. Qed.

(** ** The hypotheses are met *)
Example C36_example :
  total_order Nat.ltb (fun a b => b <=? a) /\ ascending Nat.ltb [1; 3; 3; 10] /\
  (exists h0 h, hist_new nat [1; 3; 3; 10] = Ok h0 /\
    hist_run nat Nat.ltb (fun a b => b <=? a) [OpCount [2; 2]; OpReset; OpCount [1; 2; 3; 9; 10; 0]; OpCount [4]] h0 = Ok h /\
    h_counts h = [2; 0; 3]).
Proof.
  splits.
  - split.
    + intros. now rewrite Nat.ltb_antisym, negb_involutive.
    + intros a b c. rewrite !Nat.ltb_ge. lia.
  - intros i j d Hi Hj. apply Nat.ltb_ge. cbn in Hj.
    do 4 (destruct j as [|j]; [do 4 (destruct i as [|i]; [cbn; lia|]); lia|]). lia.
  - do 2 eexists. splits; reflexivity.
Qed.

Print Assumptions C36_histogram.
Print Assumptions C36_nan_refuted.
