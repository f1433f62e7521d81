(** C12: numerical Jacobian by one-sided differences. *)
From Coq Require Import Reals Lra.
From Verif Require Import Base RBase Search_Model Sparse_Model Sparse_Spec Sparse_Lib Sparse_CooProofs Sparse_Compressed NumJac_Model.
Local Open Scope nat_scope.

(* ------------------------------------------------------------------ *)
(** * Specification *)

(** the rows of column j that are stored *)
Definition rows_stored (s : sym) (ndim j : nat) : list nat := filter (fun i => in_triangle s i j) (seq 0 ndim).

Section Spec.
Variable A : Type.
Variable f : list R -> R -> list R -> A -> list R * A * res unit.
(** y with its component j moved by its increment *)
Definition moved (y : list R) (j : nat) : list R := upd y j (nth j y 0 + delta (nth j y 0))%R.
(** the calls: first f(x, y) into w1, then f(x, moved y j) into w2 for j = 0, 1, ..., one after another, all successful *)
Definition calls (x : R) (y w1 w2 : list R) (a : A) (ndim : nat) (W1 : list R) (W : nat -> list R) (a_of : nat -> A) : Prop :=
  f w1 x y a = (W1, a_of 0, Ok tt) /\ W 0 = w2 /\
  forall j, j < ndim -> f (W j) x (moved y j) (a_of j) = (W (S j), a_of (S j), Ok tt).
(** the entries: columns in order, in each column the stored rows in order *)
Definition differences (s : sym) (ndim : nat) (alpha : R) (y W1 : list R) (W : nat -> list R) : list (nat * nat * R) :=
  flat_map (fun j => map (fun i => (i, j, (alpha * (nth i (W (S j)) 0 - nth i W1 0) / delta (nth j y 0))%R)) (rows_stored s ndim j)) (seq 0 ndim).
(** the checks at the start *)
Definition fits (st : njs A) (ndim : nat) : Prop :=
  coo_valid (n_jj st) /\ ndim <= c_nrow (n_jj st) /\ ndim <= c_ncol (n_jj st) /\
  (if triangular (c_sym (n_jj st)) then (ndim + ndim * ndim) / 2 else ndim * ndim) <= c_max (n_jj st) /\
  ndim <= length (n_y st) /\ ndim <= length (n_w1 st) /\ ndim <= length (n_w2 st).
(** the function does not change the size of its output *)
Definition keeps_size : Prop := forall w x y a w' a' r, f w x y a = (w', a', r) -> length w' = length w /\ r <> Panic.
End Spec.

(* ------------------------------------------------------------------ *)
Lemma delta_pos y : (0 < delta y)%R.
Proof.
  unfold delta. apply sqrt_lt_R0. apply Rmult_lt_0_compat.
  - unfold FEPS. apply Rinv_0_lt_compat. apply pow_lt. lra.
  - eapply Rlt_le_trans; [|apply Rmax_l]. unfold THRESHOLD. lra.
Qed.
(** C12: the increment is the square root of 2^-52 times the size of the component, a size below 1e-5 counting as 1e-5 *)
Theorem C12_increment (y : R) : (0 < delta y /\ delta y * delta y = / 2 ^ 52 * Rmax 1e-5 (Rabs y))%R.
Proof.
  split; [apply delta_pos|]. unfold delta. rewrite sqrt_sqrt.
  - unfold FEPS, THRESHOLD. do 2 f_equal; lra.
  - apply Rmult_le_pos; [unfold FEPS; left; apply Rinv_0_lt_compat, pow_lt; lra|]. eapply Rle_trans; [|apply Rmax_l]. unfold THRESHOLD. lra.
Qed.
Lemma moved_back y j : j < length y -> upd (moved y j) j (nth j y 0%R) = y.
Proof.
  intros H. apply (nth_ext _ _ 0%R 0%R); [unfold moved; rewrite !upd_length; reflexivity|].
  intros i Hi. unfold moved in *. rewrite !upd_length in Hi. destruct (Nat.eq_dec i j) as [->|N].
  - rewrite nth_upd_eq by (rewrite upd_length; exact H). reflexivity.
  - rewrite !nth_upd_ne by auto. reflexivity.
Qed.

(** the range of rows as a filter *)
Lemma filter_seq_all P a n : (forall i, a <= i < a + n -> P i = true) -> filter P (seq a n) = seq a n.
Proof.
  revert a. induction n as [|n IH]; intros a H; [reflexivity|]. simpl. rewrite H by lia. f_equal. apply IH. intros i Hi. apply H. lia.
Qed.
Lemma filter_seq_none P a n : (forall i, a <= i < a + n -> P i = false) -> filter P (seq a n) = [].
Proof.
  revert a. induction n as [|n IH]; intros a H; [reflexivity|]. simpl. rewrite H by lia. apply IH. intros i Hi. apply H. lia.
Qed.
Lemma rows_range s ndim j : j < ndim -> rows_stored s ndim j = seq (fst (row_range s ndim j)) (snd (row_range s ndim j) - fst (row_range s ndim j)) /\
  fst (row_range s ndim j) <= snd (row_range s ndim j) <= ndim.
Proof.
  intros Hj. unfold rows_stored, row_range. destruct s; cbn [fst snd in_triangle]; (split; [|lia]); rewrite ?Nat.sub_0_r.
  - apply filter_seq_all. reflexivity.
  - apply filter_seq_all. reflexivity.
  - replace ndim with (j + (ndim - j)) at 1 by lia. rewrite seq_app, filter_app, filter_seq_none, filter_seq_all; [reflexivity | |].
    + intros i Hi. apply Nat.leb_le. lia.
    + intros i Hi. apply Nat.leb_gt. lia.
  - replace ndim with ((j + 1) + (ndim - (j + 1))) at 1 by lia. rewrite seq_app, filter_app, filter_seq_all, filter_seq_none, app_nil_r; [reflexivity | |].
    + intros i Hi. apply Nat.leb_gt. lia.
    + intros i Hi. apply Nat.leb_le. lia.
Qed.
(** the number of entries put before column j *)
Definition before (s : sym) (ndim j : nat) : nat := list_sum (map (fun j => length (rows_stored s ndim j)) (seq 0 j)).
Lemma before_S s ndim j : before s ndim (S j) = before s ndim j + length (rows_stored s ndim j).
Proof. unfold before. rewrite seq_S, map_app, list_sum_app. simpl. lia. Qed.
Lemma before_le s ndim j : j <= ndim -> before s ndim j <= before s ndim ndim.
Proof.
  intros H. unfold before. replace (seq 0 ndim) with (seq 0 j ++ seq (0 + j) (ndim - j)) by (rewrite <- seq_app; f_equal; lia).
  rewrite map_app, list_sum_app. lia.
Qed.
Lemma before_all s ndim : before s ndim ndim = (if triangular s then (ndim + ndim * ndim) / 2 else ndim * ndim).
Proof.
  assert (G : forall j, j <= ndim -> match s with
     | SymYesLower => 2 * before s ndim j + j * j = j + 2 * j * ndim
     | SymYesUpper => 2 * before s ndim j = j + j * j
     | _ => before s ndim j = j * ndim end).
  { induction j as [|j IH]; intros Hj; [destruct s; reflexivity|]. specialize (IH ltac:(lia)). rewrite before_S.
    destruct (rows_range s ndim j ltac:(lia)) as [-> _]. rewrite seq_length. destruct s; cbn [row_range fst snd] in *; nia. }
  specialize (G ndim (le_n _)). destruct s; cbn [triangular]; auto.
  - apply (Nat.div_unique_exact _ 2); lia.
  - apply (Nat.div_unique_exact _ 2); lia.
Qed.

Lemma for_n_each {S} (f : nat -> S -> res S) n : forall lo s, for_n n lo f s = for_each (seq lo n) f s.
Proof. induction n as [|n IH]; intros lo s; simpl; [reflexivity|]. destruct (f lo s); simpl; auto. Qed.
Lemma put_column_ok alpha dy w1 w2 ndim j jj : coo_valid jj -> j < ndim -> ndim <= c_nrow jj -> ndim <= c_ncol jj ->
  length (coo_triplets jj) + length (rows_stored (c_sym jj) ndim j) <= c_max jj -> ndim <= length w1 -> ndim <= length w2 ->
  exists jj', put_column alpha dy w1 w2 ndim j jj = Ok jj' /\ coo_valid jj' /\
    coo_triplets jj' = coo_triplets jj ++ map (fun i => (i, j, (alpha * (nth i w2 0 - nth i w1 0) / dy)%R)) (rows_stored (c_sym jj) ndim j) /\
    c_nrow jj' = c_nrow jj /\ c_ncol jj' = c_ncol jj /\ c_max jj' = c_max jj /\ c_sym jj' = c_sym jj.
Proof.
  intros Vc Hj Hr Hc Hm H1 H2. unfold put_column. destruct (rows_range (c_sym jj) ndim j Hj) as [Er Hrg].
  assert (Tri : forall i, In i (rows_stored (c_sym jj) ndim j) -> in_triangle (c_sym jj) i j = true /\ i < ndim).
  { intros i I. apply filter_In in I. destruct I as [I ?]. apply in_seq in I. split; [assumption | lia]. }
  rewrite Er in *. destruct (row_range (c_sym jj) ndim j) as [lo hi]. cbn [fst snd] in *.
  set (g := fun i => (i, j, (alpha * (nth i w2 0 - nth i w1 0) / dy)%R)).
  match goal with |- context [for_range lo hi ?b jj] => set (body := b) end.
  assert (Q : for_range lo hi body jj = for_each (seq lo (hi - lo)) body jj) by apply for_n_each.
  rewrite Q. clear Q Er Hrg. revert jj Vc Hr Hc Hm Tri body. generalize (seq lo (hi - lo)) as l.
  induction l as [|i l IH]; intros jj Vc Hr Hc Hm Tri body.
  - exists jj. rewrite app_nil_r. splits; auto.
  - destruct (Tri i (or_introl eq_refl)) as [Ti Hi]. simpl length in Hm.
    cbn [for_each]. unfold body at 1. rewrite (vget_ok w2 i 0%R), (vget_ok w1 i 0%R) by lia. cbn [bind].
    destruct (coo_put_cases R jj i j (alpha * (nth i w2 0 - nth i w1 0) / dy)%R Vc) as [(Ac & c' & E & Vc' & Tr & E1 & E2 & E3 & E4)|(Ac & e & E)].
    2:{ exfalso. unfold spec_accepts in Ac. rewrite Ti, !(proj2 (Nat.ltb_lt _ _)) in Ac by lia. discriminate Ac. }
    rewrite E. cbn [bind]. destruct (IH c') as (jj' & F & V' & Tr' & F1 & F2 & F3 & F4); try congruence.
    { rewrite Tr, app_length, E3. simpl length. lia. }
    { intros i' I. rewrite E4. apply Tri. right. exact I. }
    exists jj'. fold body in F. rewrite F1, F2, F3, F4. splits; auto. rewrite Tr', Tr, <- app_assoc. reflexivity.
Qed.

Section C12.
Variable A : Type.
Variable f : list R -> R -> list R -> A -> list R * A * res unit.
Notation nj := (numerical_jacobian A f).

Lemma vget_moved (y : list R) j : j < length y -> vget y j = Ok (nth j y 0%R).
Proof. intros H. apply vget_ok. exact H. Qed.

Lemma loop_ok ndim alpha x y W1 W a_of : ndim <= length y -> ndim <= length W1 -> (forall j, j < ndim -> ndim <= length (W (S j))) ->
  (forall j, j < ndim -> f (W j) x (moved y j) (a_of j) = (W (S j), a_of (S j), Ok tt)) ->
  forall k j jj, k + j = ndim -> coo_valid jj -> ndim <= c_nrow jj -> ndim <= c_ncol jj -> length (coo_triplets jj) = before (c_sym jj) ndim j ->
  before (c_sym jj) ndim ndim <= c_max jj ->
  exists jj', nj_loop A f ndim alpha x k j (mkNjs jj y W1 (W j) (a_of j)) = (mkNjs jj' y W1 (W ndim) (a_of ndim), Ok tt) /\ coo_valid jj' /\
    coo_triplets jj' = coo_triplets jj ++ flat_map (fun j => map (fun i => (i, j, (alpha * (nth i (W (S j)) 0 - nth i W1 0) / delta (nth j y 0))%R)) (rows_stored (c_sym jj) ndim j)) (seq j k) /\
    c_nrow jj' = c_nrow jj /\ c_ncol jj' = c_ncol jj /\ c_max jj' = c_max jj /\ c_sym jj' = c_sym jj.
Proof.
  intros Hy H1 HW Hf. induction k as [|k IH]; intros j jj Hk Vc Hr Hc Ht Hm.
  - simpl in Hk. subst j. exists jj. simpl. rewrite app_nil_r. splits; auto.
  - cbn [nj_loop n_y n_w2 n_args n_jj n_w1]. rewrite (vget_ok y j 0%R) by lia. fold (moved y j). rewrite Hf by lia.
    destruct (put_column_ok alpha (delta (nth j y 0%R)) W1 (W (S j)) ndim j jj) as (jj1 & E & V1 & Tr1 & E1 & E2 & E3 & E4); auto; try lia.
    { rewrite Ht, <- before_S. pose proof (before_le (c_sym jj) ndim (S j) ltac:(lia)). lia. }
    { apply HW. lia. }
    rewrite E, moved_back by lia.
    destruct (IH (S j) jj1) as (jj2 & F & V2 & Tr2 & F1 & F2 & F3 & F4); try lia; auto.
    { rewrite Tr1, app_length, map_length, Ht, E4, before_S. reflexivity. }
    { rewrite E4, E3. exact Hm. }
    exists jj2. rewrite F1, F2, F3, F4. splits; auto. rewrite Tr2, Tr1, E4, <- app_assoc. reflexivity.
Qed.

Lemma pass_checks ndim alpha x st : fits A st ndim -> nj ndim alpha x st =
  let '(w1', args', r) := f (n_w1 st) x (n_y st) (n_args st) in
  match r with
  | Ok _ => nj_loop A f ndim alpha x ndim 0 (mkNjs (coo_reset (n_jj st)) (n_y st) w1' (n_w2 st) args')
  | Err e => (mkNjs (n_jj st) (n_y st) w1' (n_w2 st) args', Err e)
  | Panic => (mkNjs (n_jj st) (n_y st) w1' (n_w2 st) args', Panic)
  end.
Proof.
  intros (_ & H1 & H2 & H3 & H4 & H5 & H6). unfold numerical_jacobian. rewrite (proj2 (Nat.ltb_ge _ _) H1), (proj2 (Nat.ltb_ge _ _) H2),
    (proj2 (Nat.ltb_ge _ _) H4), (proj2 (Nat.ltb_ge _ _) H5), (proj2 (Nat.ltb_ge _ _) H6).
  destruct (triangular (c_sym (n_jj st))); cbn [andb negb]; rewrite (proj2 (Nat.ltb_ge _ _) H3); reflexivity.
Qed.

(** When the function never fails, the call succeeds, the vector y is what it was, the shape and the symmetry of the
    matrix are what they were, and its entries are the difference quotients, column by column; whatever was in the matrix is dropped. *)
Theorem C12_success ndim alpha x st W1 W a_of : fits A st ndim ->
  calls A f x (n_y st) (n_w1 st) (n_w2 st) (n_args st) ndim W1 W a_of ->
  ndim <= length W1 -> (forall j, j < ndim -> ndim <= length (W (S j))) ->
  exists jj', nj ndim alpha x st = (mkNjs jj' (n_y st) W1 (W ndim) (a_of ndim), Ok tt) /\ coo_valid jj' /\
    c_nrow jj' = c_nrow (n_jj st) /\ c_ncol jj' = c_ncol (n_jj st) /\ c_max jj' = c_max (n_jj st) /\ c_sym jj' = c_sym (n_jj st) /\
    coo_triplets jj' = differences (c_sym (n_jj st)) ndim alpha (n_y st) W1 W.
Proof.
  intros Hf (C0 & CW & C) L1 LW. rewrite pass_checks by exact Hf. rewrite C0. cbv iota zeta beta.
  destruct Hf as (Vc & H1 & H2 & H3 & H4 & H5 & H6). rewrite <- CW.
  destruct (loop_ok ndim alpha x (n_y st) W1 W a_of H4 L1 LW C ndim 0 (coo_reset (n_jj st))) as (jj' & E & V' & Tr & E1 & E2 & E3 & E4); try lia; auto.
  - apply coo_reset_valid. exact Vc.
  - cbn [coo_reset c_sym c_max]. rewrite before_all. exact H3.
  - exists jj'. rewrite E. splits; auto.
Qed.

(** The number of entries: ndim^2, or one triangle. *)
Theorem C12_count s ndim alpha y W1 W :
  length (differences s ndim alpha y W1 W) = (if triangular s then (ndim + ndim * ndim) / 2 else ndim * ndim).
Proof.
  rewrite <- before_all. unfold differences, before. generalize (seq 0 ndim) as l. intros l. induction l as [|j l IH]; [reflexivity|].
  cbn [flat_map map list_sum fold_right]. rewrite app_length, map_length. unfold list_sum in IH. rewrite IH. reflexivity.
Qed.

(** For an affine function the entries are exactly those of alpha times its matrix. *)
Theorem C12_affine ndim alpha x st (M : nat -> nat -> R) (b : nat -> R) : fits A st ndim ->
  (forall w y a, length y = length (n_y st) -> ndim <= length w ->
     exists w' a', f w x y a = (w', a', Ok tt) /\ ndim <= length w' /\
       forall i, i < ndim -> nth i w' 0%R = (b i + fold_right Rplus 0 (map (fun j => M i j * nth j y 0) (seq 0 (length y))))%R) ->
  exists st', nj ndim alpha x st = (st', Ok tt) /\ n_y st' = n_y st /\ c_sym (n_jj st') = c_sym (n_jj st) /\
    coo_triplets (n_jj st') = flat_map (fun j => map (fun i => (i, j, (alpha * M i j)%R)) (rows_stored (c_sym (n_jj st)) ndim j)) (seq 0 ndim).
Proof.
  intros Hf Ha. pose proof Hf as (Vc & H1 & H2 & H3 & H4 & H5 & H6).
  destruct (Ha (n_w1 st) (n_y st) (n_args st) eq_refl H5) as (W1 & a0 & C0 & L1 & V1).
  assert (X : exists (W : nat -> list R) (a_of : nat -> A), W 0 = n_w2 st /\ a_of 0 = a0 /\
    forall j, ndim <= length (W j) /\ f (W j) x (moved (n_y st) j) (a_of j) = (W (S j), a_of (S j), Ok tt) /\
      forall i, i < ndim -> nth i (W (S j)) 0%R = (b i + fold_right Rplus 0 (map (fun k => M i k * nth k (moved (n_y st) j) 0) (seq 0 (length (n_y st)))))%R).
  { pose (stp := fix stp n := match n with 0 => (n_w2 st, a0) | S n => let '(w, a) := stp n in let '(w', a', _) := f w x (moved (n_y st) n) a in (w', a') end).
    assert (S1 : forall n, stp (S n) = (fst (fst (f (fst (stp n)) x (moved (n_y st) n) (snd (stp n)))), snd (fst (f (fst (stp n)) x (moved (n_y st) n) (snd (stp n)))))).
    { intros n. cbn [stp]. destruct (stp n) as [w a]. cbn [fst snd]. destruct (f w x (moved (n_y st) n) a) as [[w' a'] r]. reflexivity. }
    assert (Lm : forall j, length (moved (n_y st) j) = length (n_y st)) by (intros j; unfold moved; apply upd_length).
    exists (fun n => fst (stp n)), (fun n => snd (stp n)). split; [reflexivity|]. split; [reflexivity|].
    assert (LL : forall j, ndim <= length (fst (stp j))).
    { induction j as [|j IH]; [exact H6|]. rewrite S1. cbn [fst]. destruct (Ha (fst (stp j)) (moved (n_y st) j) (snd (stp j)) (Lm j) IH) as (w' & a' & E & L & _). rewrite E. exact L. }
    intros j. split; [apply LL|]. rewrite !S1. cbn [fst snd].
    destruct (Ha (fst (stp j)) (moved (n_y st) j) (snd (stp j)) (Lm j) (LL j)) as (w' & a' & E & L & Vv). rewrite E. cbn [fst snd]. split; [reflexivity|].
    intros i Hi. rewrite Vv by exact Hi. rewrite Lm. reflexivity. }
  destruct X as (W & a_of & E0 & Ea & HW).
  destruct (C12_success ndim alpha x st W1 W a_of Hf) as (jj' & E & V' & _ & _ & _ & Es & Tr); auto.
  - split; [rewrite Ea; exact C0|]. split; [exact E0|]. intros j _. apply (HW j).
  - intros j _. apply (HW (S j)).
  - eexists. split; [exact E|]. cbn [n_y n_jj]. splits; auto. rewrite Tr. unfold differences.
    assert (Q : forall l, (forall j, In j l -> j < ndim) -> flat_map (fun j => map (fun i => (i, j, (alpha * (nth i (W (S j)) 0 - nth i W1 0) / delta (nth j (n_y st) 0))%R)) (rows_stored (c_sym (n_jj st)) ndim j)) l =
      flat_map (fun j => map (fun i => (i, j, (alpha * M i j)%R)) (rows_stored (c_sym (n_jj st)) ndim j)) l).
    { induction l as [|j l IH]; intros Hl; [reflexivity|]. cbn [flat_map]. rewrite IH by (intros k Hk; apply Hl; right; exact Hk). f_equal.
      apply map_ext_in. intros i I. apply filter_In in I. destruct I as [I _]. apply in_seq in I. f_equal.
      specialize (Hl j (or_introl eq_refl)). destruct (HW j) as (_ & _ & Vj). rewrite Vj, V1 by lia.
      pose proof (delta_pos (nth j (n_y st) 0%R)) as Dp. set (d := delta _) in *.
      assert (D : (fold_right Rplus 0 (map (fun k => M i k * nth k (moved (n_y st) j) 0) (seq 0 (length (n_y st)))) =
                   fold_right Rplus 0 (map (fun k => M i k * nth k (n_y st) 0) (seq 0 (length (n_y st)))) + M i j * d)%R).
      { assert (G : forall n, fold_right Rplus 0%R (map (fun k => M i k * nth k (moved (n_y st) j) 0)%R (seq 0 n)) =
           (fold_right Rplus 0%R (map (fun k => M i k * nth k (n_y st) 0)%R (seq 0 n)) + if j <? n then M i j * d else 0)%R).
        { assert (Sm : forall g n, fold_right Rplus 0%R (map g (seq 0 (S n))) = (fold_right Rplus 0 (map g (seq 0 n)) + g n)%R).
          { intros g n. rewrite seq_S, map_app, fold_right_app. cbn [map fold_right]. rewrite Nat.add_0_l. generalize (map g (seq 0 n)) as q. induction q; cbn [fold_right]; [lra|]. rewrite IHq. lra. }
          induction n as [|n IHn]; [simpl; lra|]. rewrite !Sm, IHn. unfold moved. destruct (Nat.ltb_spec j n), (Nat.ltb_spec j (S n)); try lia.
          - rewrite nth_upd_ne by lia. lra.
          - assert (n = j) as -> by lia. rewrite nth_upd_eq by lia. fold d. lra.
          - rewrite nth_upd_ne by lia. lra. }
        rewrite G. rewrite (proj2 (Nat.ltb_lt _ _)) by lia. reflexivity. }
      rewrite D. field. lra. }
    apply Q. intros j I. apply in_seq in I. lia.
Qed.

(** When the matrix of the affine function is symmetric, or both triangles are stored, the matrix that the COO matrix stands for
    holds exactly one value per position, alpha times the entry of the function. *)
Theorem C12_affine_entries s ndim alpha (M : nat -> nat -> R) : (triangular s = true -> forall i j, M i j = M j i) -> forall i j, i < ndim -> j < ndim ->
  vals_at (expand s (flat_map (fun j => map (fun i => (i, j, (alpha * M i j)%R)) (rows_stored s ndim j)) (seq 0 ndim))) i j = [(alpha * M i j)%R].
Proof.
  intros Sy i j Hi Hj.
  assert (FF : forall (A B C : Type) (h : A -> list B) (g : B -> list C) l, flat_map g (flat_map h l) = flat_map (fun a => flat_map g (h a)) l).
  { intros T1 T2 T3 h g l. induction l; simpl; [reflexivity|]. rewrite flat_map_app, IHl. reflexivity. }
  assert (FM : forall (A B C : Type) (h : A -> B) (g : B -> list C) l, flat_map g (map h l) = flat_map (fun a => g (h a)) l).
  { intros T1 T2 T3 h g l. induction l; simpl; [reflexivity|]. rewrite IHl. reflexivity. }
  assert (FI : forall (B : Type) (P : nat -> bool) (g : nat -> list B) l, flat_map g (filter P l) = flat_map (fun a => if P a then g a else []) l).
  { intros T1 P g l. induction l; simpl; [reflexivity|]. destruct (P a); simpl; rewrite IHl; reflexivity. }
  assert (FE : forall (B : Type) (g h : nat -> list B) n, (forall k, k < n -> g k = h k) -> flat_map g (seq 0 n) = flat_map h (seq 0 n)).
  { intros B g h n H. assert (Q : forall l, (forall k, In k l -> k < n) -> flat_map g l = flat_map h l).
    { induction l as [|k l IH]; intros Hl; [reflexivity|]. simpl. rewrite H by (apply Hl; left; reflexivity). rewrite IH; [reflexivity|]. intros q Hq. apply Hl. right. exact Hq. }
    apply Q. intros k Hk. apply in_seq in Hk. lia. }
  assert (FN : forall (B : Type) n, flat_map (fun _ : nat => @nil B) (seq 0 n) = []).
  { intros B n. induction (seq 0 n); simpl; auto. }
  unfold expand. rewrite FF, vals_at_flat.
  set (tgt := if in_triangle s i j then (i, j) else (j, i)).
  assert (Ht : in_triangle s (fst tgt) (snd tgt) = true /\ fst tgt < ndim /\ snd tgt < ndim).
  { unfold tgt. destruct (in_triangle s i j) eqn:E; cbn [fst snd]; [auto|]. splits; auto. destruct s; cbn [in_triangle] in *; try discriminate;
      apply Nat.leb_gt in E; apply Nat.leb_le; lia. }
  rewrite (FE _ _ (fun k => if k =? snd tgt then [(alpha * M i j)%R] else [])).
  - rewrite (flat_map_single _ ndim (snd tgt)); [rewrite Nat.eqb_refl; reflexivity | apply Ht | intros b N; rewrite (proj2 (Nat.eqb_neq _ _) N); reflexivity].
  - intros k Hk. rewrite FM, vals_at_flat. unfold rows_stored. rewrite FI.
    rewrite (FE _ _ (fun r => if r =? fst tgt then (if k =? snd tgt then [(alpha * M i j)%R] else []) else [])).
    + rewrite (flat_map_single _ ndim (fst tgt)); [rewrite Nat.eqb_refl; reflexivity | apply Ht | intros b N; rewrite (proj2 (Nat.eqb_neq _ _) N); reflexivity].
    + intros r Hr. unfold tgt in *. clear tgt FF FM FI FE FN.
      assert (Vp : forall a b (v : R), vals_at [(a, b, v)] i j = if (a =? i) && (b =? j) then [v] else []).
      { intros a b v. unfold vals_at, at_pos. simpl. unfold row_of, col_of. simpl. destruct ((a =? i) && (b =? j)); reflexivity. }
      assert (V2 : forall a b (v : R), a <> b -> vals_at [(a, b, v); (b, a, v)] i j = if ((a =? i) && (b =? j)) || ((b =? i) && (a =? j)) then [v] else []).
      { intros a b v N. change [(a, b, v); (b, a, v)] with ([(a, b, v)] ++ [(b, a, v)]). rewrite vals_at_app, !Vp.
        destruct (Nat.eqb_spec a i), (Nat.eqb_spec b j), (Nat.eqb_spec b i), (Nat.eqb_spec a j); subst; simpl; congruence. }
      destruct (triangular s) eqn:Et.
      * specialize (Sy eq_refl). destruct (Nat.eqb_spec r k) as [->|N]; cbn [andb negb].
        -- rewrite Vp. assert (in_triangle s k k = true) as -> by (destruct s; try reflexivity; apply Nat.leb_refl).
           destruct (in_triangle s i j) eqn:Ei; cbn [fst snd];
             destruct (Nat.eqb_spec k i), (Nat.eqb_spec k j); subst; simpl; auto.
        -- rewrite V2 by exact N. rewrite (Sy r k).
           destruct s; try discriminate Et; cbn [in_triangle] in *;
             destruct (Nat.leb_spec k r); destruct (Nat.leb_spec j i); destruct (Nat.leb_spec r k); destruct (Nat.leb_spec i j); cbn [fst snd] in *; try lia;
             destruct (Nat.eqb_spec r i), (Nat.eqb_spec k j), (Nat.eqb_spec k i), (Nat.eqb_spec r j); subst; simpl; try lia; auto; rewrite Sy; reflexivity.
      * cbn [andb]. rewrite Vp. assert (in_triangle s r k = true /\ in_triangle s i j = true) as [-> ->] by (destruct s; try discriminate; auto).
        cbn [fst snd]. destruct (Nat.eqb_spec r i), (Nat.eqb_spec k j); subst; reflexivity.
Qed.

(** A failure of the function is returned; a failure of the first call leaves the matrix and y as they were. *)
Theorem C12_first_call_fails ndim alpha x st w a e : fits A st ndim -> f (n_w1 st) x (n_y st) (n_args st) = (w, a, Err e) ->
  nj ndim alpha x st = (mkNjs (n_jj st) (n_y st) w (n_w2 st) a, Err e).
Proof. intros Hf E. rewrite pass_checks by exact Hf. rewrite E. reflexivity. Qed.
(** A failure of a later call leaves y moved. *)
Theorem C12_later_failure_refuted ndim alpha x st w a e w' a' : fits A st ndim -> 0 < ndim ->
  f (n_w1 st) x (n_y st) (n_args st) = (w, a, Ok tt) -> f (n_w2 st) x (moved (n_y st) 0) a = (w', a', Err e) ->
  exists st', nj ndim alpha x st = (st', Err e) /\ n_y st' = moved (n_y st) 0 /\ n_y st' <> n_y st.
Proof.
  intros Hf Hn E1 E2. rewrite pass_checks by exact Hf. rewrite E1. destruct ndim as [|k]; [lia|]. cbn [nj_loop n_y n_w2 n_args n_jj n_w1].
  destruct Hf as (_ & _ & _ & _ & H4 & _). rewrite (vget_ok _ 0 0%R) by lia. fold (moved (n_y st) 0). rewrite E2.
  eexists. split; [reflexivity|]. cbn [n_y]. split; [reflexivity|]. intros X.
  assert (Y : nth 0 (moved (n_y st) 0) 0%R = nth 0 (n_y st) 0%R) by (rewrite X; reflexivity).
  unfold moved in Y. rewrite nth_upd_eq in Y by lia. pose proof (delta_pos (nth 0 (n_y st) 0%R)). lra.
Qed.

(** Without the sizes that are checked the call is refused and nothing changes. *)
Theorem C12_refused ndim alpha x st : coo_valid (n_jj st) -> ~ fits A st ndim -> exists e, nj ndim alpha x st = (st, Err e).
Proof.
  intros Vc Nf. unfold numerical_jacobian.
  destruct (Nat.ltb_spec (c_nrow (n_jj st)) ndim); [eauto|]. destruct (Nat.ltb_spec (c_ncol (n_jj st)) ndim); [eauto|].
  destruct (triangular (c_sym (n_jj st))) eqn:Et; cbn [andb negb].
  - destruct (Nat.ltb_spec (c_max (n_jj st)) ((ndim + ndim * ndim) / 2)); [eauto|].
    destruct (Nat.ltb_spec (length (n_y st)) ndim); [eauto|]. destruct (Nat.ltb_spec (length (n_w1 st)) ndim); [eauto|].
    destruct (Nat.ltb_spec (length (n_w2 st)) ndim); [eauto|]. exfalso. apply Nf. unfold fits. rewrite Et. splits; auto.
  - destruct (Nat.ltb_spec (c_max (n_jj st)) (ndim * ndim)); [eauto|].
    destruct (Nat.ltb_spec (length (n_y st)) ndim); [eauto|]. destruct (Nat.ltb_spec (length (n_w1 st)) ndim); [eauto|].
    destruct (Nat.ltb_spec (length (n_w2 st)) ndim); [eauto|]. exfalso. apply Nf. unfold fits. rewrite Et. splits; auto.
Qed.
(** It never panics when the function does not and keeps the size of its output, whether or not the function fails. *)
Theorem C12_never_panics ndim alpha x st : coo_valid (n_jj st) -> keeps_size A f -> snd (nj ndim alpha x st) <> Panic.
Proof.
  intros Vc Ks.
  assert (Dec : fits A st ndim \/ ~ fits A st ndim).
  { unfold fits. destruct (le_dec ndim (c_nrow (n_jj st))), (le_dec ndim (c_ncol (n_jj st))),
      (le_dec (if triangular (c_sym (n_jj st)) then (ndim + ndim * ndim) / 2 else ndim * ndim) (c_max (n_jj st))),
      (le_dec ndim (length (n_y st))), (le_dec ndim (length (n_w1 st))), (le_dec ndim (length (n_w2 st))); try (right; intros (? & ? & ? & ? & ? & ? & ?); contradiction).
    left. splits; auto. }
  destruct Dec as [Hf|Nf].
  2:{ destruct (C12_refused ndim alpha x st Vc Nf) as (e & ->). discriminate. }
  rewrite pass_checks by exact Hf. destruct (f (n_w1 st) x (n_y st) (n_args st)) as [[w1 a1] r] eqn:E. destruct (Ks _ _ _ _ _ _ _ E) as [L1 Np].
  destruct r; [|discriminate | congruence]. destruct Hf as (_ & H1 & H2 & H3 & H4 & H5 & H6).
  assert (Q : forall k j jj y w2 a, k + j = ndim -> coo_valid jj -> ndim <= c_nrow jj -> ndim <= c_ncol jj -> length (coo_triplets jj) = before (c_sym jj) ndim j ->
    before (c_sym jj) ndim ndim <= c_max jj -> ndim <= length y -> ndim <= length w2 -> snd (nj_loop A f ndim alpha x k j (mkNjs jj y w1 w2 a)) <> Panic).
  { induction k as [|k IH]; intros j jj y w2 a' Hk Vj Hr Hc Ht Hm Hy Hw; [discriminate|]. cbn [nj_loop n_y n_w2 n_args n_jj n_w1]. rewrite (vget_ok y j 0%R) by lia.
    destruct (f w2 x (upd y j (nth j y 0%R + delta (nth j y 0%R))%R) a') as [[w2' a2] r2] eqn:E2. destruct (Ks _ _ _ _ _ _ _ E2) as [L2 Np2].
    destruct r2; [|discriminate | congruence].
    destruct (put_column_ok alpha (delta (nth j y 0%R)) w1 w2' ndim j jj) as (jj1 & F & V1 & Tr1 & F1 & F2 & F3 & F4); auto; try lia.
    { rewrite Ht, <- before_S. pose proof (before_le (c_sym jj) ndim (S j) ltac:(lia)). lia. }
    rewrite F. apply IH; try lia; auto.
    - rewrite Tr1, app_length, map_length, Ht, F4, before_S. reflexivity.
    - rewrite F4, F3. exact Hm.
    - rewrite !upd_length. exact Hy. }
  apply Q; cbn [coo_reset c_sym c_max c_nrow c_ncol]; try lia; auto.
  - apply coo_reset_valid. exact Vc.
  - rewrite before_all. exact H3.
Qed.
End C12.

(** ** Non-vacuity: f(x, y) = (2 y0 + y1 + x, 3 y1), lower triangle and full storage *)
Definition lin2 (w : list R) (x : R) (y : list R) (a : nat) : list R * nat * res unit :=
  ([(2 * nth 0 y 0 + nth 1 y 0 + x)%R; (3 * nth 1 y 0)%R], S a, Ok tt).
Definition st2 : njs nat := mkNjs (mkCoo SymNo 2 2 0 4 [0; 0; 0; 0] [0; 0; 0; 0] [0; 0; 0; 0]%R) [1; 5]%R [0; 0]%R [0; 0]%R 0.
Example st2_fits : fits nat st2 2.
Proof.
  unfold fits, st2. cbn [n_jj n_y n_w1 n_w2 c_nrow c_ncol c_sym c_max triangular length]. splits; try lia.
  unfold coo_valid. cbn. splits; try lia; auto.
Qed.
Example st2_runs : exists st', numerical_jacobian nat lin2 2 10 7 st2 = (st', Ok tt) /\ n_y st' = [1; 5]%R /\ n_args st' = 3 /\
  coo_triplets (n_jj st') = [(0, 0, (10 * 2)%R); (1, 0, (10 * 0)%R); (0, 1, (10 * 1)%R); (1, 1, (10 * 3)%R)].
Proof.
  set (W := fun j => match j with 0 => [0; 0]%R | S j => fst (fst (lin2 [] 7 (moved [1; 5]%R j) 0)) end).
  destruct (C12_success nat lin2 2 10 7 st2 (fst (fst (lin2 [] 7 [1; 5]%R 0))) W (fun j => S j) st2_fits) as (jj' & E & _ & _ & _ & _ & _ & Tr).
  - split; [reflexivity|]. split; [reflexivity|]. intros j Hj. reflexivity.
  - simpl. lia.
  - intros j Hj. simpl. lia.
  - eexists. split; [exact E|]. cbn [n_y n_args n_jj]. splits; auto. rewrite Tr. unfold differences, st2, rows_stored. cbn.
    pose proof (delta_pos 1). pose proof (delta_pos 5). repeat (apply f_equal2; [f_equal; field; lra|]). reflexivity.
Qed.

Print Assumptions C12_increment.
Print Assumptions C12_success.
Print Assumptions C12_affine.
Print Assumptions C12_affine_entries.
Print Assumptions C12_never_panics.
Print Assumptions C12_later_failure_refuted.
