(** The row-form construction shared by COO->CSR and COO->CSC. *)
From Verif Require Import Base Sparse_Model Sparse_Spec Sparse_Lib Sparse_Dedup Sparse_CooProofs.

Section P.
Variable T : Type.
Variable zero : T.
Variable add : T -> T -> T.
Implicit Types c : coo T.

(** entries of row [b] in order of insertion, duplicates included *)
Definition raw_row (ts : list (nat * nat * T)) (b : nat) : list (nat * T) :=
  map (fun t => (col_of t, val_of t)) (bucket row_of b ts).

(** where row [b] starts *)
Notation rstart ts b := (start row_of ts b).

Lemma raw_row_length ts b : length (raw_row ts b) = cnt row_of b ts.
Proof. unfold raw_row. now rewrite map_length. Qed.

Lemma kvals_raw_row ts i j : kvals j (raw_row ts i) = vals_at ts i j.
Proof.
  unfold kvals, raw_row, vals_at, bucket.
  induction ts as [|[[a b] x] ts IH]; cbn [filter map]; auto.
  change (at_pos i j (a, b, x)) with ((a =? i) && (b =? j)).
  change (row_of (a, b, x)) with a.
  destruct (a =? i); cbn [map filter andb fst]; auto.
  change (col_of (a, b, x)) with b.
  destruct (b =? j); cbn [map snd]; [f_equal|]; exact IH.
Qed.

Lemma cell_cellv ts i j : cell T zero add ts i j = cellv T zero add (vals_at ts i j).
Proof. unfold cell, cellv. now destruct (vals_at ts i j). Qed.

Lemma coo_rows_lt c : coo_valid c -> Forall (fun t => row_of t < c_nrow c) (coo_triplets c).
Proof.
  intros V. eapply Forall_impl; [|exact (coo_valid_in_range T c V)]. intros t H. apply H.
Qed.

Lemma rstart_nrow c : coo_valid c -> rstart (coo_triplets c) (c_nrow c) = c_nnz c.
Proof.
  intros V. unfold start. rewrite psum_cnt by now apply coo_rows_lt.
  now apply coo_triplets_length.
Qed.

Lemma fill_prefix_ok n v w :
  n <= length w ->
  exists w', fill_prefix n v w = Ok w' /\ length w' = length w /\
    forall j, j < n -> nth j w' 0%Z = v.
Proof.
  intros H. unfold fill_prefix.
  destruct (for_range_inv (fun i w' => length w' = length w /\ forall j, j < i -> nth j w' 0%Z = v)
    (fun j w => vset w j v) 0 n w) as (w' & E & H1 & H2); try lia.
  - split; auto. intros; lia.
  - intros i t Hi [Hl Ht]. rewrite vset_ok by lia. eexists; split; [reflexivity|cbn beta iota].
    rewrite upd_length. split; auto. intros j Hj. rewrite nth_upd by lia.
    destruct (Nat.eqb_spec j i); auto. apply Ht. lia.
  - exists w'. auto.
Qed.

Lemma count_rows_ok c w :
  coo_valid c -> c_nrow c <= length w ->
  (forall b, b < c_nrow c -> nth b w 0%Z = 0%Z) ->
  exists w', count_rows (c_nnz c) (c_ii c) w = Ok w' /\ length w' = length w /\
    forall b, b < c_nrow c -> nth b w' 0%Z = Z.of_nat (cnt row_of b (coo_triplets c)).
Proof.
  intros V Hw H0. unfold count_rows.
  rewrite (coo_loop T zero c _ (fun t w => x <- vget w (row_of t) ;; vset w (row_of t) (x + 1)%Z)); auto.
  2:{ intros k t d Hk E1 _ _. now rewrite E1. }
  apply (for_each_inv (fun pre w' => length w' = length w /\
    forall b, b < c_nrow c -> nth b w' 0%Z = Z.of_nat (cnt row_of b pre))).
  - auto.
  - intros pre a post w1 E [Hl H1].
    assert (Ha : row_of a < c_nrow c).
    { assert (HF := coo_rows_lt c V). rewrite Forall_forall in HF. apply HF. rewrite E.
      apply in_or_app. right. now left. }
    rewrite (vget_ok _ _ 0%Z) by lia. cbn [bind]. rewrite vset_ok by lia.
    eexists; split; [reflexivity|cbn beta iota]. rewrite upd_length. split; auto.
    intros b Hb. rewrite nth_upd by lia. rewrite cnt_snoc.
    destruct (Nat.eqb_spec b (row_of a)) as [->|Hne].
    + rewrite Nat.eqb_refl, H1 by assumption. lia.
    + destruct (Nat.eqb_spec (row_of a) b); [lia|]. rewrite H1 by assumption. lia.
Qed.

Lemma row_pointers_ok ts nrow rp w :
  length rp = nrow + 1 -> nrow <= length w ->
  (forall b, b < nrow -> nth b w 0%Z = Z.of_nat (cnt (@row_of T) b ts)) ->
  exists rp' w', row_pointers_loop nrow rp w = Ok (rp', w') /\
    length rp' = nrow + 1 /\ length w' = length w /\
    (forall b, b <= nrow -> nth b rp' 0 = rstart ts b) /\
    (forall b, b < nrow -> nth b w' 0%Z = Z.of_nat (rstart ts b)).
Proof.
  intros Hrp Hw Hc. unfold row_pointers_loop. rewrite vset_ok by lia. cbn [bind].
  match goal with |- context[for_range 0 nrow ?f ?s] =>
  destruct (for_range_inv (fun i (st : list nat * list Z) =>
    let '(r, v) := st in
    length r = nrow + 1 /\ length v = length w /\
    (forall b, b <= i -> nth b r 0 = rstart ts b) /\
    (forall b, b < i -> nth b v 0%Z = Z.of_nat (rstart ts b)) /\
    (forall b, i <= b -> nth b v 0%Z = nth b w 0%Z)) f 0 nrow s) as ([r v] & E & H1 & H2 & H3 & H4 & H5)
  end; try lia.
  - rewrite upd_length. splits; auto; try (intros; lia).
    intros b Hb. assert (b = 0) by lia. subst. rewrite nth_upd_eq by lia. reflexivity.
  - intros i [r v] Hi (H1 & H2 & H3 & H4 & H5).
    rewrite (vget_ok _ _ 0) by lia. cbn [bind].
    rewrite (vget_ok _ _ 0%Z) by lia. cbn [bind].
    rewrite H5, Hc by lia. unfold as_index.
    destruct (Z.ltb_spec (Z.of_nat (cnt row_of i ts)) 0); [lia|]. cbn [bind].
    rewrite Nat2Z.id, vset_ok by lia. cbn [bind]. rewrite vset_ok by lia. cbn [bind].
    eexists; split; [reflexivity|cbn beta iota]. rewrite !upd_length. splits; auto.
    + intros b Hb. rewrite nth_upd by lia. destruct (Nat.eqb_spec b (i + 1)) as [->|].
      * rewrite Nat.add_1_r, start_S, H3 by lia. reflexivity.
      * apply H3. lia.
    + intros b Hb. rewrite nth_upd by lia. destruct (Nat.eqb_spec b i) as [->|].
      * rewrite H3 by lia. reflexivity.
      * apply H4. lia.
    + intros b Hb. rewrite nth_upd by lia. destruct (Nat.eqb_spec b i); [lia|]. apply H5. lia.
  - exists r, v. splits; auto.
Qed.

Lemma scatter_rows_jx_ok c rjx w :
  coo_valid c -> length rjx = c_nnz c -> c_nrow c <= length w ->
  (forall b, b < c_nrow c -> nth b w 0%Z = Z.of_nat (rstart (coo_triplets c) b)) ->
  exists rjx' w', scatter_rows_jx T (c_nnz c) (c_ii c) (c_jj c) (c_vv c) rjx w = Ok (rjx', w') /\
    length rjx' = length rjx /\ length w' = length w /\
    forall b, b < c_nrow c ->
      seg rjx' (rstart (coo_triplets c) b) (rstart (coo_triplets c) (S b)) = raw_row (coo_triplets c) b.
Proof.
  intros V Hl Hw H0. unfold scatter_rows_jx. set (ts := coo_triplets c) in *.
  rewrite (coo_loop T zero c _ (fun t st =>
    let '(rjx, w) := st in
    wi <- vget w (row_of t) ;;
    p <- as_index wi ;;
    rjx <- vset rjx p (col_of t, val_of t) ;;
    w <- vset w (row_of t) (wi + 1)%Z ;;
    Ok (rjx, w))); auto.
  2:{ intros k [r v] d Hk E1 E2 E3. rewrite E1, E2, E3. cbn [bind].
      destruct (vget v _); cbn [bind]; auto. }
  fold ts.
  destruct (for_each_inv (fun pre (st : list (nat * T) * list Z) =>
    let '(r, v) := st in
    length r = length rjx /\ length v = length w /\
    filled row_of (fun t => (col_of t, val_of t)) ts pre (c_nrow c) r /\
    (forall b, b < c_nrow c -> nth b v 0%Z = Z.of_nat (rstart ts b + cnt row_of b pre)))
    (fun t st =>
    let '(rjx, w) := st in
    wi <- vget w (row_of t) ;;
    p <- as_index wi ;;
    rjx <- vset rjx p (col_of t, val_of t) ;;
    w <- vset w (row_of t) (wi + 1)%Z ;;
    Ok (rjx, w)) ts (rjx, w)) as ([r v] & E & H1 & H2 & H3 & H4).
  - splits; auto. apply filled_nil. intros b Hb. rewrite H0 by assumption. f_equal. unfold cnt, bucket. simpl. lia.
  - intros pre a post [r v] E (H1 & H2 & H3 & H4).
    assert (Ha : row_of a < c_nrow c).
    { assert (HF := coo_rows_lt c V). rewrite Forall_forall in HF. apply HF. fold ts. rewrite E.
      apply in_or_app. right. now left. }
    assert (Hn : rstart ts (c_nrow c) <= length r) by (unfold ts; rewrite rstart_nrow by assumption; lia).
    destruct (filled_step row_of (fun t => (col_of t, val_of t)) ts (c_nrow c) r pre a post E Ha Hn H3)
      as [Hp HF].
    rewrite (vget_ok _ _ 0%Z) by lia. cbn [bind]. rewrite H4 by assumption.
    unfold as_index. destruct (Z.ltb_spec (Z.of_nat (rstart ts (row_of a) + cnt row_of (row_of a) pre)) 0); [lia|].
    cbn [bind]. rewrite Nat2Z.id, vset_ok by assumption. cbn [bind].
    rewrite vset_ok by lia. cbn [bind].
    eexists; split; [reflexivity|cbn beta iota]. rewrite !upd_length. splits; auto.
    intros b Hb. rewrite nth_upd by lia. rewrite cnt_snoc.
    destruct (Nat.eqb_spec b (row_of a)) as [->|Hne].
    + rewrite Nat.eqb_refl. lia.
    + destruct (Nat.eqb_spec (row_of a) b); [lia|]. rewrite H4 by assumption. lia.
  - exists r, v. splits; try assumption.
Qed.

Lemma dedup_rows_jx_ok ts nrow ncol rp (rjx : list (nat * T)) rc w :
  length rc = nrow -> length rp = nrow + 1 -> ncol <= length w ->
  (forall b, b <= nrow -> nth b rp 0 = rstart ts b) ->
  rstart ts nrow <= length rjx ->
  (forall b, b < nrow -> seg rjx (rstart ts b) (rstart ts (S b)) = raw_row ts b) ->
  (forall j, j < ncol -> nth j w 0%Z = (-1)%Z) ->
  Forall (fun t => col_of t < ncol) ts ->
  exists rjx' rc' w', dedup_rows_jx T add nrow rp rjx rc w = Ok (rjx', rc', w') /\
    length rjx' = length rjx /\ length rc' = nrow /\ length w' = length w /\
    (forall b, b < nrow ->
       nth b rc' 0 = length (dedup T zero add (raw_row ts b)) /\
       seg rjx' (rstart ts b) (rstart ts b + nth b rc' 0) = dedup T zero add (raw_row ts b)).
Proof.
  intros Hrc Hrpl Hw Hrp Hlen Hrow Hw0 HF. unfold dedup_rows_jx.
  match goal with |- context[for_range 0 nrow ?f ?s] =>
  destruct (for_range_inv (fun i (st : list (nat * T) * list nat * list Z) =>
    let '(r, q, v) := st in
    length r = length rjx /\ length q = nrow /\ length v = length w /\
    (forall b, b < i ->
       nth b q 0 = length (dedup T zero add (raw_row ts b)) /\
       seg r (rstart ts b) (rstart ts b + nth b q 0) = dedup T zero add (raw_row ts b)) /\
    (forall k d, rstart ts i <= k -> nth k r d = nth k rjx d) /\
    (forall j, j < ncol -> (nth j v 0 < Z.of_nat (rstart ts i))%Z)) f 0 nrow s)
    as ([[r q] v] & E & H1 & H2 & H3 & H4 & H5 & H6)
  end; try lia.
  - splits; auto; try (intros; lia). intros j Hj. rewrite Hw0 by assumption. lia.
  - intros i [[r q] v] Hi (H1 & H2 & H3 & H4 & H5 & H6).
    rewrite (vget_ok _ _ 0) by lia. cbn [bind].
    rewrite (vget_ok _ _ 0) by lia. cbn [bind].
    rewrite Nat.add_1_r, !Hrp by lia.
    assert (Hm1 : rstart ts i <= rstart ts (S i)) by (apply start_mono; lia).
    assert (Hm2 : rstart ts (S i) <= rstart ts nrow) by (apply start_mono; lia).
    assert (Hseg : seg r (rstart ts i) (rstart ts (S i)) = raw_row ts i).
    { rewrite <- Hrow by lia. apply seg_ext; try lia. intros; apply H5; lia. }
    destruct (dedup_row_jx_ok T zero add (rstart ts i) (rstart ts (S i)) r v ncol)
      as (r' & v' & dest & E & Hd & Hd2 & Hl1 & Hl2 & Hsg & Hout & Hv'); auto; try lia.
    { rewrite Hseg. unfold raw_row. rewrite Forall_map. apply Forall_forall. intros t Ht.
      unfold bucket in Ht. apply filter_In in Ht. rewrite Forall_forall in HF. simpl. apply HF. apply Ht. }
    rewrite E. cbn [bind]. rewrite usub_ok by lia. cbn [bind].
    rewrite vset_ok by lia. cbn [bind]. eexists; split; [reflexivity|cbn beta iota].
    rewrite upd_length. rewrite Hseg in *. splits; auto; try lia.
    + intros b Hb. rewrite nth_upd by lia. destruct (Nat.eqb_spec b i) as [->|Hne].
      * replace (dest - rstart ts i) with (length (dedup T zero add (raw_row ts i))) by lia.
        split; auto. rewrite <- Hd. assumption.
      * destruct (H4 b) as [Hq Hs]; [lia|]. split; auto.
        rewrite <- Hs. 
        assert (Hbn : nth b q 0 <= cnt row_of b ts).
        { rewrite Hq, <- raw_row_length. apply dedup_length. }
        assert (rstart ts (S b) <= rstart ts i) by (apply start_mono; lia).
        rewrite start_S in *.
        apply seg_ext; try lia. intros k d Hk. apply Hout. left. lia.
    + intros k d Hk. rewrite Hout by lia. apply H5. lia.
  - exists r, q, v. splits; auto.
Qed.

End P.

Arguments raw_row {T}.
