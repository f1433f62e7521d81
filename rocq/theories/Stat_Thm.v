(** C37-C39: descriptive statistics, quantiles, quartiles and outliers (exact arithmetic). *)
From Coq Require Import Permutation Sorted.
From Verif Require Import RBase Sort_Model Stat_Model.
Open Scope R_scope.
Open Scope res_scope.

(** * Specification *)

(** sum of a list of reals *)
Definition rsum (l : list R) : R := fold_right Rplus 0 l.

Definition smean (l : list R) : R := rsum l / INR (length l).
(** the (n-1)-normalised variance *)
Definition svar (l : list R) : R :=
  rsum (map (fun x => (x - smean l) * (x - smean l)) l) / (INR (length l) - 1).

(** * C37 *)

Lemma fold_sum l a : fold_left (fun acc curr => acc + curr) l a = a + rsum l.
Proof. revert a; induction l as [|x l IH]; intros a; cbn [fold_left]; [unfold rsum; cbn; lra|]. rewrite IH. unfold rsum; cbn [fold_right]. lra. Qed.

Definition mm_step (s : option R * option R) (x : R) : option R * option R :=
  let '(mn, mx) := s in
  (match mn with None => Some x | Some m => if Rltb x m then Some x else mn end,
   match mx with None => Some x | Some m => if Rltb m x then Some x else mx end).

Lemma fold_stats mean l : forall mn mx c v,
  fold_left (stats_step mean) l (mn, mx, c, v) =
  (fst (fold_left mm_step l (mn, mx)),
   snd (fold_left mm_step l (mn, mx)),
   c + rsum (map (fun x => x - mean) l),
   v + rsum (map (fun x => (x - mean) * (x - mean)) l)).
Proof.
  induction l as [|x l IH]; intros mn mx c v.
  - cbn. f_equal; [f_equal|]; ring.
  - cbn [fold_left]. unfold stats_step at 2. rewrite IH. cbn [map rsum fold_right mm_step].
    f_equal; [f_equal|]; unfold rsum; ring.
Qed.

Definition is_min (m : R) (l : list R) : Prop := In m l /\ forall x, In x l -> m <= x.
Definition is_max (m : R) (l : list R) : Prop := In m l /\ forall x, In x l -> x <= m.

Lemma fold_minmax : forall post pre mn mx, is_min mn pre -> is_max mx pre ->
  exists mn' mx',
  fold_left mm_step post (Some mn, Some mx)
  = (Some mn', Some mx') /\ is_min mn' (pre ++ post) /\ is_max mx' (pre ++ post).
Proof.
  induction post as [|x post IH]; intros pre mn mx A B.
  - exists mn, mx. rewrite app_nil_r. auto.
  - cbn [fold_left mm_step].
    replace (if Rltb x mn then Some x else Some mn) with (Some (if Rltb x mn then x else mn))
      by now destruct (Rltb x mn).
    replace (if Rltb mx x then Some x else Some mx) with (Some (if Rltb mx x then x else mx))
      by now destruct (Rltb mx x).
    replace (pre ++ x :: post) with ((pre ++ [x]) ++ post) by (now rewrite <- app_assoc).
    apply IH.
    + destruct A as [A1 A2]. split.
      * apply in_or_app. destruct (Rltb x mn); [right; now left|now left].
      * intros y Hy. apply in_app_or in Hy. destruct (Rltb_spec x mn), Hy as [Hy|[->|[]]]; try lra;
          specialize (A2 y Hy); lra.
    + destruct B as [B1 B2]. split.
      * apply in_or_app. destruct (Rltb mx x); [right; now left|now left].
      * intros y Hy. apply in_app_or in Hy. destruct (Rltb_spec mx x), Hy as [Hy|[->|[]]]; try lra;
          specialize (B2 y Hy); lra.
Qed.

Lemma rsum_sub l a : rsum (map (fun x => x - a) l) = rsum l - INR (length l) * a.
Proof.
  induction l as [|x l IH]; [cbn; lra|]. cbn [map rsum fold_right length]. fold (rsum l).
  fold (rsum (map (fun x => x - a) l)). rewrite IH, S_INR. ring.
Qed.

Lemma rsum_sq_nonneg {A} (f : A -> R) l : 0 <= rsum (map (fun x => f x * f x) l).
Proof.
  induction l as [|x l IH]; [cbn; lra|]. cbn [map rsum fold_right]. fold (rsum (map (fun x => f x * f x) l)).
  assert (0 <= f x * f x) by apply Rle_0_sqr. lra.
Qed.

(** C37: for two or more values, the true minimum, maximum, mean and (n-1)-normalised deviation *)
Theorem C37_statistics : forall x : list R, (2 <= length x)%nat ->
  let s := statistics_new x in
  is_min (st_min s) x /\ is_max (st_max s) x /\ st_mean s = smean x /\
  st_dev s = sqrt (svar x) /\ 0 <= svar x /\ st_dev s * st_dev s = svar x /\
  st_min s <= st_mean s <= st_max s.
Proof.
  intros x Hn s.
  destruct x as [|x0 [|x1 x']]; cbn [length] in Hn; try lia.
  set (x := x0 :: x1 :: x') in *.
  assert (Hs : s = let mean := smean x in
    let '(mn, mx, corrector, variance) := fold_left (stats_step mean) x (None, None, 0, 0) in
    mkStats (finite_or_0 mn) (finite_or_0 mx) mean
      (sqrt ((variance - corrector * corrector / INR (length x)) / (INR (length x) - 1)))).
  { unfold s, statistics_new. unfold x at 1. fold x. cbv zeta.
    assert (E : fold_left (fun acc curr => acc + curr) x 0 / INR (length x) = smean x).
    { rewrite fold_sum. unfold smean. f_equal. lra. }
    rewrite E. reflexivity. }
  clearbody s. cbv zeta in Hs. rewrite fold_stats in Hs. revert Hs.
  change (fold_left mm_step x (None, None)) with (fold_left mm_step (x1 :: x') (Some x0, Some x0)).
  destruct (fold_minmax (x1 :: x') [x0] x0 x0) as (mn & mx & E & A & B).
  { split; [now left|]. intros y [->|[]]. lra. }
  { split; [now left|]. intros y [->|[]]. lra. }
  rewrite E. cbn [fst snd finite_or_0].
  intros Hs.
  change ([x0] ++ x1 :: x') with x in A, B.
  assert (Hlen : INR (length x) <> 0) by (unfold x; cbn [length]; rewrite S_INR; pose proof (pos_INR (S (length x'))); lra).
  assert (Hlen1 : 0 < INR (length x) - 1).
  { unfold x; cbn [length]; rewrite !S_INR; pose proof (pos_INR (length x')); lra. }
  assert (C0 : rsum (map (fun y => y - smean x) x) = 0).
  { rewrite rsum_sub. unfold smean. field. auto. }
  assert (V : (0 + rsum (map (fun y => (y - smean x) * (y - smean x)) x) -
               (0 + rsum (map (fun y => y - smean x) x)) * (0 + rsum (map (fun y => y - smean x) x)) / INR (length x))
              / (INR (length x) - 1) = svar x).
  { unfold svar. rewrite C0. f_equal. field. auto. }
  rewrite V in Hs. subst s. cbn [st_min st_max st_mean st_dev].
  assert (P : 0 <= svar x).
  { unfold svar. apply Rmult_le_pos; [apply (rsum_sq_nonneg (fun y => y - smean x))|].
    left. now apply Rinv_0_lt_compat. }
  splits; auto.
  - now apply sqrt_def.
  - destruct A as [_ A]. clear - A Hlen1.
    assert (G : INR (length x) * mn <= rsum x).
    { clear Hlen1. induction x as [|y l IH]; [cbn; lra|]. cbn [length rsum fold_right]. rewrite S_INR.
      fold (rsum l). assert (mn <= y) by (apply A; now left).
      assert (INR (length l) * mn <= rsum l) by (apply IH; intros; apply A; now right). lra. }
    unfold smean. apply (Rmult_le_reg_r (INR (length x))); [lra|]. unfold Rdiv.
    rewrite Rmult_assoc, Rinv_l by lra. lra.
  - destruct B as [_ B]. clear - B Hlen1.
    assert (G : rsum x <= INR (length x) * mx).
    { clear Hlen1. induction x as [|y l IH]; [cbn; lra|]. cbn [length rsum fold_right]. rewrite S_INR.
      fold (rsum l). assert (y <= mx) by (apply B; now left).
      assert (rsum l <= INR (length l) * mx) by (apply IH; intros; apply B; now right). lra. }
    unfold smean. apply (Rmult_le_reg_r (INR (length x))); [lra|]. unfold Rdiv.
    rewrite Rmult_assoc, Rinv_l by lra. lra.
Qed.

(** the degenerate sizes as documented *)
Theorem C37_degenerate :
  statistics_new [] = mkStats 0 0 0 0 /\ forall a, statistics_new [a] = mkStats a a a 0.
Proof. split; reflexivity. Qed.

(** the deviation is zero exactly for constant data *)
Theorem C37_dev_zero : forall x : list R, (2 <= length x)%nat ->
  (st_dev (statistics_new x) = 0 <-> exists c, forall y, In y x -> y = c).
Proof.
  intros x Hn. destruct (C37_statistics x Hn) as (_ & _ & _ & D & P & DD & _). cbv zeta in *.
  assert (Hlen1 : 0 < INR (length x) - 1).
  { apply le_INR in Hn. change (INR 2) with 2 in Hn. lra. }
  split.
  - intros Z. rewrite Z in DD.
    assert (S : rsum (map (fun y => (y - smean x) * (y - smean x)) x) = 0).
    { unfold svar in DD. apply (Rmult_eq_reg_r (/ (INR (length x) - 1))).
      - unfold Rdiv in DD. rewrite <- DD. ring.
      - apply Rinv_neq_0_compat. lra. }
    exists (smean x). intros y Hy. revert Hy. generalize dependent (smean x). clear. intros m.
    induction x as [|z l IH]; intros S Hy; [destruct Hy|].
    cbn [map rsum fold_right] in S. fold (rsum (map (fun y => (y - m) * (y - m)) l)) in S.
    pose proof (rsum_sq_nonneg (fun y => y - m) l). pose proof (Rle_0_sqr (z - m)). unfold Rsqr in *.
    destruct Hy as [->|Hy].
    + assert (Q : (y - m) * (y - m) = 0) by lra. apply Rmult_integral in Q. lra.
    + apply IH; auto. lra.
  - intros [c Hc]. rewrite D.
    assert (S : smean x = c).
    { unfold smean. assert (G : rsum x = INR (length x) * c).
      { clear - Hc. induction x as [|z l IH]; [cbn; lra|]. cbn [length rsum fold_right]. rewrite S_INR.
        fold (rsum l). rewrite IH by (intros; apply Hc; now right). rewrite (Hc z) by now left. ring. }
      rewrite G. field. lra. }
    assert (V : svar x = 0).
    { unfold svar. rewrite S. assert (G : rsum (map (fun y => (y - c) * (y - c)) x) = 0).
      { clear - Hc. induction x as [|z l IH]; [reflexivity|]. cbn [map rsum fold_right].
        fold (rsum (map (fun y => (y - c) * (y - c)) l)).
        rewrite IH by (intros; apply Hc; now right). rewrite (Hc z) by now left. ring. }
      rewrite G. field. lra. }
    rewrite V. apply sqrt_0.
Qed.

Example C37_example : let s := statistics_new [1; 2; 6] in
  st_min s = 1 /\ st_max s = 6 /\ st_mean s = 3 /\ st_dev s = sqrt 7.
Proof.
  assert (Hn : (2 <= length [1; 2; 6]%R)%nat) by (cbn; lia).
  destruct (C37_statistics _ Hn) as (A & B & C & D & _). cbv zeta in *.
  assert (M : smean [1; 2; 6] = 3) by (unfold smean, rsum; cbn; lra).
  splits.
  - destruct A as [A0 A']. assert (G := A' 1 ltac:(now left)). destruct A0 as [A|[A|[A|[]]]]; rewrite <- A in *; lra.
  - destruct B as [B0 B']. assert (G := B' 6 ltac:(right; right; now left)).
    destruct B0 as [B|[B|[B|[]]]]; rewrite <- B in *; lra.
  - now rewrite C.
  - rewrite D. f_equal. unfold svar. rewrite M. unfold rsum; cbn; lra.
Qed.

(** * C38 *)

Lemma Int_part_spec x : IZR (Int_part x) <= x < IZR (Int_part x) + 1.
Proof. destruct (base_Int_part x). lra. Qed.

Lemma Int_part_eq x k : IZR k <= x < IZR k + 1 -> Int_part x = k.
Proof.
  intros H. pose proof (Int_part_spec x) as G.
  assert (Int_part x < k + 1)%Z by (apply lt_IZR; rewrite plus_IZR; lra).
  assert (k < Int_part x + 1)%Z by (apply lt_IZR; rewrite plus_IZR; lra). lia.
Qed.

Lemma floor_usize_spec x : 0 <= x -> INR (floor_usize x) <= x < INR (floor_usize x) + 1.
Proof.
  intros H. unfold floor_usize. pose proof (Int_part_spec x) as G.
  assert (0 <= Int_part x)%Z. { assert (-1 < Int_part x)%Z; [apply lt_IZR; lra|lia]. }
  rewrite INR_IZR_INZ, Z2Nat.id by auto. auto.
Qed.

Lemma ceil_usize_spec x : 0 <= x -> x <= INR (ceil_usize x) < x + 1.
Proof.
  intros H. unfold ceil_usize. pose proof (Int_part_spec (- x)) as G.
  assert (0 <= - Int_part (- x))%Z. { assert (Int_part (- x) < 1)%Z; [apply lt_IZR; lra|lia]. }
  rewrite INR_IZR_INZ, Z2Nat.id, opp_IZR by auto. lra.
Qed.

Lemma INR_lt_S a b : INR a < INR b + 1 -> (a <= b)%nat.
Proof. intros H. apply Nat.lt_succ_r, INR_lt. rewrite S_INR. auto. Qed.

Lemma quantile_index n q : (1 <= n)%nat -> 0 <= q <= 1 ->
  0 <= q * INR (n - 1) <= INR (n - 1).
Proof.
  intros Hn Hq. pose proof (pos_INR (n - 1)). split.
  - apply Rmult_le_pos; lra.
  - rewrite <- (Rmult_1_l (INR (n - 1))) at 2. apply Rmult_le_compat_r; lra.
Qed.

(** the value of quantile: a convex combination of the two neighbouring order statistics *)
Lemma quantile_val data q : (1 <= length data)%nat -> 0 <= q <= 1 ->
  let ix := q * INR (length data - 1) in
  let lo := floor_usize ix in let up := ceil_usize ix in
  (lo <= up)%nat /\ (up <= lo + 1)%nat /\ (up < length data)%nat /\ INR lo <= ix /\ ix <= INR up /\
  ix < INR lo + 1 /\
  quantile data q = Ok (nth lo data 0 + (ix - INR lo) * (nth up data 0 - nth lo data 0)).
Proof.
  intros Hn Hq ix lo up. pose proof (quantile_index _ _ Hn Hq) as I. fold ix in I.
  pose proof (floor_usize_spec ix (proj1 I)) as F. fold lo in F.
  pose proof (ceil_usize_spec ix (proj1 I)) as C. fold up in C.
  assert (L1 : (lo <= up)%nat) by (apply INR_le; lra).
  assert (L2 : (up <= lo + 1)%nat).
  { apply INR_lt_S. rewrite plus_INR. change (INR 1) with 1. lra. }
  assert (L3 : (up < length data)%nat).
  { assert (up <= length data - 1)%nat by (apply INR_lt_S; lra). lia. }
  splits; auto; try lra.
  unfold quantile. destruct (Nat.eqb_spec (length data) 0) as [|_]; [lia|].
  destruct (Rltb_spec q 0) as [|_]; [lra|]. destruct (Rltb_spec 1 q) as [|_]; [lra|].
  cbn [orb]. fold ix. fold lo. fold up. rewrite (vget_ok _ lo 0) by lia. cbn [bind].
  rewrite (vget_ok _ up 0) by lia. reflexivity.
Qed.

(** quantile panics exactly on empty data or q outside [0,1] *)
Theorem C38_defined : forall data q,
  (quantile data q = Panic <-> (data = [] \/ q < 0 \/ 1 < q)) /\ forall msg, quantile data q <> Err msg.
Proof.
  intros data q.
  destruct data as [|a data].
  - split; [split; auto|discriminate].
  - destruct (Rltb_spec q 0) as [H|H].
    { split; [split; auto|]; unfold quantile; rewrite (proj2 (Rltb_true q 0) H); cbn; auto; discriminate. }
    destruct (Rltb_spec 1 q) as [K|K].
    { split; [split; auto|]; unfold quantile; rewrite (proj2 (Rltb_true 1 q) K), orb_true_r; cbn; auto; discriminate. }
    destruct (quantile_val (a :: data) q) as (_ & _ & _ & _ & _ & _ & E); [cbn; lia|lra|].
    rewrite E. split; [split; [discriminate|]|discriminate].
    intros [|[|]]; [discriminate|lra|lra].
Qed.

(** C38: for n >= 2 the quantile is the piecewise linear function through the points
    (k/(n-1), data[k]); this determines it for every q in [0,1] *)
Theorem C38_interpolates : forall data k t, (k + 1 < length data)%nat -> 0 <= t <= 1 ->
  quantile data ((INR k + t) / INR (length data - 1)) =
  Ok ((1 - t) * nth k data 0 + t * nth (k + 1) data 0).
Proof.
  intros data k t Hk Ht.
  assert (N : 0 < INR (length data - 1)) by (apply lt_0_INR; lia).
  assert (Hk1 : INR k + 1 <= INR (length data - 1)).
  { replace (INR k + 1) with (INR (k + 1)) by (rewrite plus_INR; reflexivity). apply le_INR. lia. }
  pose proof (pos_INR k) as Pk.
  set (q := (INR k + t) / INR (length data - 1)).
  assert (IX : q * INR (length data - 1) = INR k + t) by (unfold q; field; lra).
  assert (Q : 0 <= q <= 1).
  { split; apply (Rmult_le_reg_r (INR (length data - 1))); auto; rewrite IX; lra. }
  destruct (quantile_val data q) as (L1 & L2 & L3 & I1 & I2 & I3 & E); [lia|auto|].
  rewrite E. rewrite IX in *. clear E IX. f_equal.
  set (lo := floor_usize (INR k + t)) in *. set (up := ceil_usize (INR k + t)) in *.
  clearbody lo up.
  assert (lo <= k + 1)%nat by (apply INR_lt_S; rewrite plus_INR; change (INR 1) with 1; lra).
  assert (k <= lo)%nat by (apply INR_lt_S; lra).
  destruct (Nat.eq_dec lo k) as [->|].
  - destruct (Nat.eq_dec up k) as [->|].
    + assert (t = 0) by lra. subst t. ring.
    + assert (up = k + 1)%nat as -> by lia. ring.
  - assert (lo = k + 1)%nat as -> by lia. rewrite plus_INR in *. change (INR 1) with 1 in *.
    assert (t = 1) by lra. subst t. ring.
Qed.

(** one datum: every quantile is that datum *)
Theorem C38_single : forall a q, 0 <= q <= 1 -> quantile [a] q = Ok a.
Proof.
  intros a q Hq. destruct (quantile_val [a] q) as (L1 & L2 & L3 & I1 & I2 & I3 & E); [cbn; lia|auto|].
  rewrite E. cbn [length Nat.sub INR] in *. rewrite Rmult_0_r in *. f_equal.
  assert (U : ceil_usize 0 = 0%nat) by lia. assert (L : floor_usize 0 = 0%nat) by lia.
  rewrite U, L. cbn. ring.
Qed.

(** in particular the order statistics are reproduced, and the extremes *)
Theorem C38_order_statistics : forall data k, (2 <= length data)%nat -> (k < length data)%nat ->
  quantile data (INR k / INR (length data - 1)) = Ok (nth k data 0).
Proof.
  intros data k Hn Hk. destruct (Nat.eq_dec (k + 1) (length data)) as [E|E].
  - replace (INR k) with (INR (k - 1) + 1).
    + rewrite C38_interpolates by (try lia; lra). f_equal.
      replace (k - 1 + 1)%nat with k by lia. ring.
    + rewrite minus_INR by lia. change (INR 1) with 1. ring.
  - replace (INR k) with (INR k + 0) by ring. rewrite C38_interpolates by (try lia; lra). f_equal. ring.
Qed.

Definition ascending (l : list R) : Prop :=
  forall i j, (i <= j)%nat -> (j < length l)%nat -> nth i l 0 <= nth j l 0.

Lemma quantile_between data q v : ascending data -> (1 <= length data)%nat -> 0 <= q <= 1 ->
  quantile data q = Ok v ->
  nth (floor_usize (q * INR (length data - 1))) data 0 <= v <=
  nth (ceil_usize (q * INR (length data - 1))) data 0.
Proof.
  intros S Hn Hq E. destruct (quantile_val data q) as (L1 & L2 & L3 & I1 & I2 & I3 & E'); auto.
  rewrite E' in E. injection E as E. subst v.
  set (lo := floor_usize _) in *. set (up := ceil_usize _) in *.
  set (ix := q * _) in *. clearbody lo up ix.
  assert (D : nth lo data 0 <= nth up data 0) by (apply S; lia).
  assert (0 <= (ix - INR lo) * (nth up data 0 - nth lo data 0)) by (apply Rmult_le_pos; lra).
  assert ((ix - INR lo) * (nth up data 0 - nth lo data 0) <= 1 * (nth up data 0 - nth lo data 0))
    by (apply Rmult_le_compat_r; lra). lra.
Qed.

(** C38: the quantile of ascending data lies between the smallest and the largest datum *)
Theorem C38_bounds : forall data q, ascending data -> data <> [] -> 0 <= q <= 1 ->
  exists v, quantile data q = Ok v /\ nth 0 data 0 <= v <= nth (length data - 1) data 0.
Proof.
  intros data q S Hne Hq.
  assert (Hn : (1 <= length data)%nat) by (destruct data; [contradiction|cbn; lia]).
  destruct (quantile_val data q) as (L1 & L2 & L3 & I1 & I2 & I3 & E); auto.
  eexists. split; [exact E|]. destruct (quantile_between data q _ S Hn Hq E) as [A B].
  split; eapply Rle_trans; try exact A; try exact B; apply S; lia.
Qed.

(** C38: the quantile is monotone in q *)
Theorem C38_monotone : forall data q q' v v', ascending data ->
  0 <= q -> q <= q' -> q' <= 1 ->
  quantile data q = Ok v -> quantile data q' = Ok v' -> v <= v'.
Proof.
  intros data q q' v v' S H0 H1 H2 E E'.
  assert (Hn : (1 <= length data)%nat) by (destruct data; [discriminate|cbn; lia]).
  destruct (quantile_val data q) as (L1 & L2 & L3 & I1 & I2 & I3 & F); [auto|lra|].
  destruct (quantile_val data q') as (L1' & L2' & L3' & I1' & I2' & I3' & F'); [auto|lra|].
  destruct (quantile_between data q v S Hn ltac:(lra) E) as [A B].
  destruct (quantile_between data q' v' S Hn ltac:(lra) E') as [A' B'].
  rewrite F in E. rewrite F' in E'. injection E as E. injection E' as E'.
  assert (IX : q * INR (length data - 1) <= q' * INR (length data - 1))
    by (apply Rmult_le_compat_r; auto; apply pos_INR).
  set (lo := floor_usize (q * _)) in *. set (up := ceil_usize (q * _)) in *.
  set (lo' := floor_usize (q' * _)) in *. set (up' := ceil_usize (q' * _)) in *.
  set (ix := q * _) in *. set (ix' := q' * _) in *. clearbody lo up lo' up' ix ix'. clear F F'.
  assert (Hlo : (lo <= lo')%nat) by (apply INR_lt_S; lra).
  destruct (Nat.eq_dec lo lo') as [<-|Hne].
  - (* same cell *)
    destruct (Nat.eq_dec up lo) as [->|].
    + eapply Rle_trans; [exact B|]. auto.
    + assert (up = lo + 1)%nat as -> by lia.
      destruct (Nat.eq_dec up' lo) as [->|].
      * assert (ix' = INR lo) by lra. assert (Z : ix - INR lo = 0) by lra.
        assert (Z' : ix' - INR lo = 0) by lra. rewrite Z, Z' in *. lra.
      * assert (up' = lo + 1)%nat as -> by lia.
        assert (nth lo data 0 <= nth (lo + 1) data 0) by (apply S; lia).
        assert ((ix - INR lo) * (nth (lo + 1) data 0 - nth lo data 0) <=
                (ix' - INR lo) * (nth (lo + 1) data 0 - nth lo data 0))
          by (apply Rmult_le_compat_r; lra). lra.
  - eapply Rle_trans; [exact B|]. eapply Rle_trans; [|exact A']. apply S; lia.
Qed.

(** ** sorting *)
Lemma Rcmp_spec a b : CompareSpec (a = b) (a < b) (b < a) (Rcmp a b).
Proof.
  unfold Rcmp. destruct (Rltb_spec a b); [now constructor|].
  destruct (Rltb_spec b a); constructor; lra.
Qed.

Section Sorting.
Context {A : Type}.
Variable cmp : A -> A -> comparison.
Lemma insert_perm a l : Permutation (insert_by cmp a l) (a :: l).
Proof.
  induction l as [|b l IH]; cbn [insert_by]; auto.
  destruct (cmp a b); auto. eapply perm_trans; [apply perm_skip, IH|]. apply perm_swap.
Qed.
Lemma sort_perm l : Permutation (sort_by cmp l) l.
Proof.
  induction l as [|a l IH]; cbn [sort_by]; auto.
  eapply perm_trans; [apply insert_perm|]. now constructor.
Qed.
Variable ord : A -> A -> Prop.
Variable aux : A -> A -> Prop.
Hypothesis ord_trans : forall a b c, ord a b -> ord b c -> ord a c.
Hypothesis cmp_gt : forall a b, cmp a b = Gt -> ord b a.
Hypothesis cmp_le : forall a b, cmp a b <> Gt -> aux a b -> ord a b.
Lemma insert_sorted a l : Forall (aux a) l -> StronglySorted ord l -> StronglySorted ord (insert_by cmp a l).
Proof using ord_trans cmp_gt cmp_le.
  intros HF HS. induction HS as [|b l HS IH HB]; cbn [insert_by]; [repeat constructor|].
  inversion HF as [|? ? Hab HF']; subst.
  destruct (cmp a b) eqn:E.
  1, 2: constructor; [constructor; auto|]; assert (ord a b) by (apply cmp_le; [congruence|auto]);
    constructor; auto; eapply Forall_impl; [|exact HB]; intros k Hk; eapply ord_trans; eauto.
  constructor; [now apply IH|]. apply (Permutation_Forall (Permutation_sym (insert_perm a l))).
  constructor; auto.
Qed.
Lemma sort_sorted l : StronglySorted aux l -> StronglySorted ord (sort_by cmp l).
Proof using ord_trans cmp_gt cmp_le.
  induction 1 as [|a l HS IH HF]; cbn [sort_by]; [constructor|].
  apply insert_sorted; auto. apply (Permutation_Forall (Permutation_sym (sort_perm l))). exact HF.
Qed.
End Sorting.

Lemma strongly_trivial {A} (l : list A) : StronglySorted (fun _ _ => True) l.
Proof. induction l; constructor; auto. apply Forall_forall. auto. Qed.

Lemma strongly_nth {A} (ord : A -> A -> Prop) l d : StronglySorted ord l ->
  forall i j, (i < j)%nat -> (j < length l)%nat -> ord (nth i l d) (nth j l d).
Proof.
  induction 1 as [|a l HS IH HF]; intros i j Hi Hj; cbn [length] in Hj; [lia|].
  destruct j as [|j]; [lia|]. destruct i as [|i]; cbn [nth].
  - rewrite Forall_forall in HF. apply HF. apply nth_In. lia.
  - apply IH; lia.
Qed.

Lemma Rsort_ascending l : ascending (sort_by Rcmp l).
Proof.
  assert (S : StronglySorted Rle (sort_by Rcmp l)).
  { apply (sort_sorted Rcmp Rle (fun _ _ => True)).
    - intros; lra.
    - intros a b. destruct (Rcmp_spec a b); intros; try discriminate. lra.
    - intros a b. destruct (Rcmp_spec a b); intros; try lra; congruence.
    - apply strongly_trivial. }
  intros i j Hi Hj. destruct (Nat.eq_dec i j) as [->|]; [lra|]. apply strongly_nth; auto. lia.
Qed.

Lemma ascending_strongly l : ascending l -> StronglySorted Rle l.
Proof.
  induction l as [|a l IH]; intros H; constructor.
  - apply IH. intros i j Hi Hj. apply (H (S i) (S j)); cbn; lia.
  - apply Forall_forall. intros x Hx. destruct (In_nth l x 0 Hx) as (i & Hi & <-).
    apply (H 0%nat (S i)); cbn; lia.
Qed.

Lemma ascending_unique l l' : ascending l -> ascending l' -> Permutation l l' -> l = l'.
Proof.
  intros H H'. apply ascending_strongly in H, H'. revert l' H'.
  induction H as [|a l HS IH HF]; intros l' H' P.
  - now apply Permutation_nil in P.
  - destruct l' as [|b l']; [apply Permutation_sym, Permutation_nil in P; discriminate|].
    inversion H' as [|? ? S' HF']; subst.
    assert (a = b).
    { assert (Ha : In a (b :: l')) by (eapply Permutation_in; [exact P|now left]).
      assert (Hb : In b (a :: l)) by (eapply Permutation_in; [apply Permutation_sym; exact P|now left]).
      destruct Ha as [|Ha]; auto. destruct Hb as [|Hb]; auto.
      rewrite Forall_forall in HF, HF'. specialize (HF _ Hb). specialize (HF' _ Ha). lra. }
    subst b. f_equal. apply IH; auto. eapply Permutation_cons_inv. exact P.
Qed.

(** the specification of the quartiles: [s] is the data in ascending order, and the quartiles are its
    interpolated order statistics at 1/4, 1/2 and 3/4 of the way *)
Definition quartiles_of (data s : list R) (q1 q2 q3 : R) : Prop :=
  Permutation s data /\ ascending s /\
  quantile s (1/4) = Ok q1 /\ quantile s (1/2) = Ok q2 /\ quantile s (3/4) = Ok q3.

Theorem C38_quartiles : forall data, data <> [] ->
  exists s q1 q2 q3, quartiles data = Ok (s, (q1, q2, q3)) /\ quartiles_of data s q1 q2 q3 /\
    nth 0 s 0 <= q1 <= q2 /\ q2 <= q3 <= nth (length s - 1) s 0 /\
    inter_quartile_range data = Ok (s, q3 - q1) /\ 0 <= q3 - q1.
Proof.
  intros data Hne.
  set (s := sort_by Rcmp data).
  assert (P : Permutation s data) by apply sort_perm.
  assert (S : ascending s) by apply Rsort_ascending.
  assert (Hs : s <> []).
  { intros E. rewrite E in P. apply Permutation_nil in P. auto. }
  destruct (C38_bounds s (1/4) S Hs ltac:(lra)) as (q1 & E1 & B1).
  destruct (C38_bounds s (1/2) S Hs ltac:(lra)) as (q2 & E2 & B2).
  destruct (C38_bounds s (3/4) S Hs ltac:(lra)) as (q3 & E3 & B3).
  assert (q1 <= q2) by (eapply (C38_monotone s (1/4) (1/2)); eauto; lra).
  assert (q2 <= q3) by (eapply (C38_monotone s (1/2) (3/4)); eauto; lra).
  assert (Q : quartiles data = Ok (s, (q1, q2, q3))).
  { unfold quartiles. destruct data; [contradiction|]. cbn [length Nat.eqb]. fold s.
    rewrite E1. cbn [bind]. rewrite E2. cbn [bind]. rewrite E3. reflexivity. }
  exists s, q1, q2, q3. unfold quartiles_of. splits; auto; try lra.
  unfold inter_quartile_range. rewrite Q. reflexivity.
Qed.

(** C38: the quartiles do not depend on the order of the input *)
Theorem C38_order_independent : forall data data', Permutation data data' ->
  quartiles data = quartiles data' /\ inter_quartile_range data = inter_quartile_range data'.
Proof.
  intros data data' P.
  assert (E : sort_by Rcmp data = sort_by Rcmp data').
  { apply ascending_unique; try apply Rsort_ascending.
    eapply perm_trans; [apply sort_perm|]. eapply perm_trans; [exact P|]. apply Permutation_sym, sort_perm. }
  assert (Q : quartiles data = quartiles data').
  { unfold quartiles. rewrite (Permutation_length P), E. reflexivity. }
  split; auto. unfold inter_quartile_range. now rewrite Q.
Qed.

Example C38_example : quartiles [4; 1; 3; 2] = Ok ([1; 2; 3; 4], (7/4, 5/2, 13/4)).
Proof.
  assert (S : sort_by Rcmp [4; 1; 3; 2] = [1; 2; 3; 4]).
  { assert (Lt : forall a b, a < b -> Rcmp a b = Lt) by (intros a b ?; destruct (Rcmp_spec a b); auto; lra).
    assert (Gt : forall a b, b < a -> Rcmp a b = Gt) by (intros a b ?; destruct (Rcmp_spec a b); auto; lra).
    cbn [sort_by insert_by]. rewrite (Gt 3 2) by lra. cbn [insert_by].
    rewrite (Lt 1 2) by lra. cbn [insert_by]. rewrite (Gt 4 1), (Gt 4 2), (Gt 4 3) by lra. reflexivity. }
  assert (Q : forall k t q v, (k + 1 < 4)%nat -> 0 <= t <= 1 -> q * 3 = INR k + t ->
      v = (1 - t) * nth k [1; 2; 3; 4] 0 + t * nth (k + 1) [1; 2; 3; 4] 0 -> quantile [1; 2; 3; 4] q = Ok v).
  { intros k t q v Hk Ht Hq ->. rewrite <- C38_interpolates by auto. f_equal.
    cbn [length Nat.sub INR]. lra. }
  unfold quartiles. cbn [length Nat.eqb]. rewrite S.
  rewrite (Q 0%nat (3/4) (1/4) (7/4)) by (try lia; cbn; lra). cbn [bind].
  rewrite (Q 1%nat (1/2) (1/2) (5/2)) by (try lia; cbn; lra). cbn [bind].
  rewrite (Q 2%nat (1/4) (3/4) (13/4)) by (try lia; cbn; lra).
  reflexivity.
Qed.

(** * C39 *)

(** C39: `outliers` reports exactly the data outside of [Q1 - 1.5 IQR, Q3 + 1.5 IQR], each with its
    position in the input, each once, in ascending order of value and (equal values) of position *)
Theorem C39_outliers : forall data, data <> [] ->
  exists out s q1 q2 q3, outliers data = Ok out /\ quartiles_of data s q1 q2 q3 /\
    (forall i v, In (i, v) out <->
       nth_error data i = Some v /\ (v < q1 - 3/2 * (q3 - q1) \/ q3 + 3/2 * (q3 - q1) < v)) /\
    StronglySorted (fun a b => snd a < snd b \/ (snd a = snd b /\ (fst a < fst b)%nat)) out.
Proof.
  intros data Hne.
  set (ix := combine (seq 0 (length data)) data).
  set (sx := sort_by (fun a b : nat * R => Rcmp (snd a) (snd b)) ix).
  assert (M : map snd ix = data).
  { unfold ix. clear Hne. generalize 0%nat as k. induction data as [|a l IH]; intros k; cbn; auto. now rewrite IH. }
  assert (P : Permutation (map snd sx) data).
  { eapply perm_trans; [apply Permutation_map, sort_perm|]. rewrite M. apply Permutation_refl. }
  assert (Hne' : map snd sx <> []).
  { intros E. rewrite E in P. apply Permutation_nil in P. auto. }
  destruct (C38_quartiles _ Hne') as (s & q1 & q2 & q3 & Q & (P' & A & E1 & E2 & E3) & _).
  assert (Inx : forall i v, In (i, v) ix <-> nth_error data i = Some v).
  { unfold ix. assert (G : forall (l : list R) k i v, In (i, v) (combine (seq k (length l)) l) <->
       (k <= i)%nat /\ nth_error l (i - k) = Some v).
    { clear. induction l as [|a l IH]; intros k i v; cbn [length seq combine In].
      - split; [tauto|]. intros [_ H]. destruct (i - k)%nat; discriminate.
      - rewrite IH. split.
        + intros [E|[H1 H2]].
          * injection E as -> ->. split; [lia|]. now rewrite Nat.sub_diag.
          * split; [lia|]. replace (i - k)%nat with (Datatypes.S (i - Datatypes.S k)) by lia. auto.
        + intros [H1 H2]. destruct (Nat.eq_dec i k) as [->|].
          * rewrite Nat.sub_diag in H2. injection H2 as ->. now left.
          * right. split; [lia|]. replace (i - k)%nat with (Datatypes.S (i - Datatypes.S k)) in H2 by lia. auto. }
    intros i v. rewrite G, Nat.sub_0_r. split; [tauto|]. split; [lia|auto]. }
  eexists _, s, q1, q2, q3. splits.
  - unfold outliers. fold ix. fold sx. rewrite Q. cbn [bind]. reflexivity.
  - unfold quartiles_of. splits; auto. eapply perm_trans; eauto.
  - intros i v. rewrite filter_In.
    assert (In (i, v) sx <-> In (i, v) ix) as ->.
    { split; intros H; eapply Permutation_in; try exact H; [apply sort_perm|apply Permutation_sym, sort_perm]. }
    rewrite Inx, orb_true_iff, !Rltb_true. tauto.
  - assert (SS : StronglySorted (fun a b : nat * R => snd a < snd b \/ (snd a = snd b /\ (fst a < fst b)%nat)) sx).
    { apply (sort_sorted (fun a b : nat * R => Rcmp (snd a) (snd b)) _ (fun a b => (fst a < fst b)%nat)).
      - intros a b c [H|[H H']] [K|[K K']]; [left; lra|left; lra|left; lra|right; split; [lra|lia]].
      - intros a b. destruct (Rcmp_spec (snd a) (snd b)); intros; try discriminate. now left.
      - intros a b. destruct (Rcmp_spec (snd a) (snd b)); intros; auto; congruence.
      - unfold ix. clear. generalize 0%nat as k. induction data as [|a l IH]; intros k; cbn [length seq combine]; constructor.
        + apply IH.
        + apply Forall_forall. intros [i v] H. apply in_combine_l in H. apply in_seq in H. cbn. lia. }
    clear - SS. induction SS as [|a l HS IH HF]; cbn [filter]; [constructor|].
    destruct (let '(_, v) := a in _); auto. constructor; auto.
    apply Forall_forall. intros b Hb. apply filter_In in Hb. rewrite Forall_forall in HF. apply HF. tauto.
Qed.

(** on empty data `outliers` (like `quartiles`) panics *)
Theorem C39_empty_panics : outliers [] = Panic /\ quartiles [] = Panic /\ inter_quartile_range [] = Panic.
Proof. splits; reflexivity. Qed.

Print Assumptions C37_statistics.
Print Assumptions C38_interpolates.
Print Assumptions C38_monotone.
Print Assumptions C38_order_independent.
Print Assumptions C39_outliers.
