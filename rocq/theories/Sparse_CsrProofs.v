(** COO -> CSR. *)
From Coq Require Import Permutation.
From Verif Require Import Base Dense_Model Sparse_Model Sparse_Spec Sparse_Lib Sparse_Dedup Sparse_CooProofs Sparse_Rows.

Section P.
Variable T : Type.
Variable zero : T.
Variable add : T -> T -> T.
Implicit Types c : coo T.
Notation rstart ts b := (start row_of ts b).
Notation ddp := (dedup T zero add).

Lemma fix_row_pointers_ok nrow bp rc :
  length bp = nrow + 1 -> length rc = nrow ->
  exists bp', fix_row_pointers nrow bp rc = Ok bp' /\ length bp' = nrow + 1 /\
    forall b, b <= nrow -> nth b bp' 0 = psum (fun b => nth b rc 0) b.
Proof.
  intros Hbp Hrc. unfold fix_row_pointers. rewrite vset_ok by lia. cbn [bind].
  match goal with |- context[for_range 0 nrow ?f ?s] =>
  destruct (for_range_inv (fun i q => length q = nrow + 1 /\
    forall b, b <= i -> nth b q 0 = psum (fun b => nth b rc 0) b) f 0 nrow s) as (q & E & H1 & H2)
  end; try lia.
  - rewrite upd_length. split; auto. intros b Hb. assert (b = 0) by lia. subst.
    now rewrite nth_upd_eq by lia.
  - intros i q Hi [H1 H2]. rewrite (vget_ok _ _ 0) by lia. cbn [bind].
    rewrite (vget_ok _ _ 0) by lia. cbn [bind]. rewrite vset_ok by lia.
    eexists; split; [reflexivity|]. rewrite upd_length. split; auto.
    intros b Hb. rewrite nth_upd by lia. destruct (Nat.eqb_spec b (i + 1)) as [->|].
    + rewrite Nat.add_1_r. cbn [psum]. rewrite H2 by lia. reflexivity.
    + apply H2. lia.
  - exists q. auto.
Qed.

Lemma write_list_ok (l : list (nat * T)) bj bx k :
  k + length l <= length bj -> k + length l <= length bx ->
  exists bj' bx',
    for_each l (fun jx st =>
        let '(bj, bx, k) := st in
        bj <- vset bj k (fst jx) ;;
        bx <- vset bx k (snd jx) ;;
        Ok (bj, bx, k + 1)) (bj, bx, k) = Ok (bj', bx', k + length l) /\
    length bj' = length bj /\ length bx' = length bx /\
    seg bj' k (k + length l) = map fst l /\ seg bx' k (k + length l) = map snd l /\
    (forall q d, q < k \/ k + length l <= q -> nth q bj' d = nth q bj d) /\
    (forall q d, q < k \/ k + length l <= q -> nth q bx' d = nth q bx d).
Proof.
  revert bj bx k; induction l as [|[j x] l IH]; intros bj bx k H1 H2; cbn [for_each length map fst snd] in *.
  - exists bj, bx. rewrite Nat.add_0_r, !seg_nil by lia. splits; auto.
  - rewrite vset_ok by lia. cbn [bind]. rewrite vset_ok by lia. cbn [bind].
    destruct (IH (upd bj k j) (upd bx k x) (k + 1)) as (bj' & bx' & E & L1 & L2 & S1 & S2 & O1 & O2);
      rewrite ?upd_length in *; try lia.
    exists bj', bx'. rewrite E. replace (k + 1 + length l) with (k + S (length l)) in * by lia.
    splits; auto.
    + rewrite (seg_cons _ _ _ 0) by lia. rewrite <- Nat.add_1_r, S1. f_equal.
      rewrite O1 by lia. apply nth_upd_eq. lia.
    + rewrite (seg_cons _ _ _ x) by lia. rewrite <- Nat.add_1_r, S2. f_equal.
      rewrite O2 by lia. apply nth_upd_eq. lia.
    + intros q d Hq. rewrite O1 by lia. apply nth_upd_ne. lia.
    + intros q d Hq. rewrite O2 by lia. apply nth_upd_ne. lia.
Qed.

Lemma sort_rows_ok ts nrow rp rc (rjx : list (nat * T)) bj bx :
  length rp = nrow + 1 -> length rc = nrow ->
  (forall b, b <= nrow -> nth b rp 0 = rstart ts b) ->
  (forall b, b < nrow ->
     nth b rc 0 = length (ddp (raw_row ts b)) /\
     seg rjx (rstart ts b) (rstart ts b + nth b rc 0) = ddp (raw_row ts b)) ->
  rstart ts nrow <= length rjx -> rstart ts nrow <= length bj -> rstart ts nrow <= length bx ->
  exists rjx' bj' bx' k,
    sort_rows T nrow rp rc rjx bj bx = Ok (rjx', bj', bx', k) /\
    length rjx' = length rjx /\ length bj' = length bj /\ length bx' = length bx /\
    forall b, b < nrow ->
      combine (seg bj' (psum (fun b => nth b rc 0) b) (psum (fun b => nth b rc 0) (S b)))
              (seg bx' (psum (fun b => nth b rc 0) b) (psum (fun b => nth b rc 0) (S b)))
      = sort_by_key T (ddp (raw_row ts b)).
Proof.
  intros Hrpl Hrcl Hrp Hrow Hr Hj Hx. unfold sort_rows.
  set (ps := psum (fun b => nth b rc 0)).
  assert (Hps : forall b, b <= nrow -> ps b <= rstart ts b).
  { induction b as [|b IH]; intros Hb; [apply Nat.le_refl|].
    unfold ps. cbn [psum]. fold ps. rewrite start_S.
    destruct (Hrow b) as [Hb1 _]; [lia|].
    assert (Hd := dedup_length T zero add (raw_row ts b)). rewrite raw_row_length in Hd.
    specialize (IH ltac:(lia)). lia. }
  match goal with |- context[for_range 0 nrow ?f ?s] =>
  destruct (for_range_inv (fun i (st : list (nat * T) * list nat * list T * nat) =>
    let '(r, p, q, k) := st in
    length r = length rjx /\ length p = length bj /\ length q = length bx /\ k = ps i /\
    (forall k d, rstart ts i <= k -> nth k r d = nth k rjx d) /\
    (forall b, b < i -> combine (seg p (ps b) (ps (S b))) (seg q (ps b) (ps (S b)))
      = sort_by_key T (ddp (raw_row ts b)))) f 0 nrow s)
    as ([[[r p] q] k] & E & H1 & H2 & H3 & H4 & H5 & H6)
  end; try lia.
  - splits; auto. intros; lia.
  - intros i [[[r p] q] k] Hi (H1 & H2 & H3 & H4 & H5 & H6).
    rewrite (vget_ok _ _ 0) by lia. cbn [bind].
    rewrite (vget_ok _ _ 0) by lia. cbn [bind]. rewrite Hrp by lia.
    destruct (Hrow i) as [Hc Hs]; [lia|].
    assert (Hd := dedup_length T zero add (raw_row ts i)). rewrite raw_row_length in Hd.
    assert (Hm : rstart ts (S i) <= rstart ts nrow) by (apply start_mono; lia).
    rewrite start_S in Hm.
    assert (Hs' : seg r (rstart ts i) (rstart ts i + nth i rc 0) = ddp (raw_row ts i)).
    { rewrite <- Hs. apply seg_ext; try lia. intros; apply H5; lia. }
    unfold slice. destruct (Nat.leb_spec (rstart ts i) (rstart ts i + nth i rc 0)); [|lia].
    destruct (Nat.leb_spec (rstart ts i + nth i rc 0) (length r)); [|lia]. cbn [andb bind].
    fold (seg r (rstart ts i) (rstart ts i + nth i rc 0)). rewrite Hs'.
    set (sd := sort_by_key T (ddp (raw_row ts i))).
    assert (Hlsd : length sd = nth i rc 0).
    { unfold sd. rewrite <- (Permutation_length (sort_perm T (ddp (raw_row ts i)))). lia. }
    assert (Hpsi : ps (S i) = ps i + nth i rc 0) by reflexivity.
    assert (Hpn := Hps (S i) ltac:(lia)). rewrite start_S in Hpn.
    destruct (write_list_ok sd p q k) as (p' & q' & E & L1 & L2 & S1 & S2 & O1 & O2); try lia.
    rewrite E. cbn [bind]. eexists; split; [reflexivity|cbn beta iota].
    assert (Hlr : length (firstn (rstart ts i) r ++ sd ++ skipn (rstart ts i + nth i rc 0) r) = length r).
    { rewrite !app_length, firstn_length, skipn_length. lia. }
    splits; try lia.
    + intros k0 d Hk0. rewrite start_S in Hk0.
      rewrite app_nth2 by (rewrite firstn_length; lia).
      rewrite firstn_length, Nat.min_l by lia.
      rewrite app_nth2 by lia. rewrite nth_skipn_add.
      replace (rstart ts i + nth i rc 0 + (k0 - rstart ts i - length sd)) with k0 by lia.
      apply H5. lia.
    + intros b Hb. destruct (Nat.eq_dec b i) as [->|Hne].
      * rewrite Hpsi, <- Hlsd. subst k. rewrite S1, S2. rewrite combine_map_pair.
        fold sd. rewrite <- (map_id sd) at 2. apply map_ext. now intros [? ?].
      * rewrite <- H6 by lia.
        assert (ps (S b) <= ps i) by (apply psum_mono; lia).
        assert (ps (S i) <= rstart ts (S i)) by (apply Hps; lia).
        rewrite start_S in *.
        f_equal; apply seg_ext; try lia; intros; [apply O1|apply O2]; lia.
  - exists r, p, q, k. splits; auto.
Qed.

(** keys of a spec row *)
Lemma spec_row_eq ts ncol i :
  Forall (fun t => col_of t < ncol) ts ->
  sort_by_key T (ddp (raw_row ts i)) = spec_row T zero add ts ncol i.
Proof.
  intros HF. rewrite (sort_dedup_eq T zero add _ ncol).
  - unfold spec_row. apply flat_map_ext_in. intros j _.
    rewrite kvals_raw_row, cell_cellv. reflexivity.
  - unfold raw_row. rewrite Forall_map. apply Forall_forall. intros t Ht. apply filter_In in Ht.
    rewrite Forall_forall in HF. apply HF. apply Ht.
Qed.

Lemma coo_cols_lt c : coo_valid c -> Forall (fun t => col_of t < c_ncol c) (coo_triplets c).
Proof.
  intros V. eapply Forall_impl; [|exact (coo_valid_in_range T c V)]. intros t H. apply H.
Qed.

Lemma csr_update_ok s c :
  coo_valid c -> csr_ready s ->
  c_sym c = r_sym s -> c_nrow c = r_nrow s -> c_ncol c = r_ncol s -> c_nnz c = length (r_bx s) ->
  exists s', csr_update_from_coo T zero add s c = Ok s' /\
    csr_ready s' /\ length (r_bx s') = length (r_bx s) /\
    csr_holds T zero add s' (c_sym c) (c_nrow c) (c_ncol c) (coo_triplets c).
Proof.
  intros V (R1 & R2 & R3) Hsym Hrow Hcol Hnnz. unfold csr_update_from_coo.
  rewrite Hsym, Hrow, Hcol, Hnnz, !Nat.eqb_refl.
  replace (sym_eqb (r_sym s) (r_sym s)) with true by (destruct (r_sym s); reflexivity).
  cbn [negb]. rewrite <- Hsym, <- Hrow, <- Hcol, <- Hnnz in *. set (ts := coo_triplets c).
  (* workspaces *)
  match goal with |- context[bind (if length (r_w s) =? 0 then ?a else ?b) _] =>
    assert (HW : exists rp rjx rc w, (if length (r_w s) =? 0 then a else b) = Ok (rp, rjx, rc, w) /\
      length rp = c_nrow c + 1 /\ length rjx = c_nnz c /\ length rc = c_nrow c /\
      length w = Nat.max (c_nrow c) (c_ncol c) /\
      forall b0, b0 < c_nrow c -> nth b0 w 0%Z = 0%Z)
  end.
  { destruct R3 as [E|(A1 & A2 & A3 & A4)].
    - rewrite E. cbn [length Nat.eqb]. do 4 eexists. split; [reflexivity|].
      rewrite !repeat_length. splits; auto. intros b _. apply nth_repeat_d.
    - destruct (Nat.eqb_spec (length (r_w s)) 0) as [E|E].
      + do 4 eexists. split; [reflexivity|].
        rewrite !repeat_length. splits; auto. intros b _. apply nth_repeat_d.
      + destruct (fill_prefix_ok (c_nrow c) 0%Z (r_w s)) as (w & E1 & L & Z0); [lia|].
        rewrite E1. cbn [bind]. do 4 eexists. split; [reflexivity|]. splits; auto; lia. }
  destruct HW as (rp & rjx & rc & w & EW & Lrp & Lrjx & Lrc & Lw & Zw). rewrite EW. cbn [bind].
  destruct (count_rows_ok T zero c w V) as (w1 & E1 & L1 & C1); auto; [lia|].
  rewrite E1. cbn [bind].
  destruct (row_pointers_ok T ts (c_nrow c) rp w1) as (rp' & w2 & E2 & Lrp' & L2 & Hrp & Hw2); auto; [lia|].
  rewrite E2. cbn [bind].
  destruct (scatter_rows_jx_ok T zero c rjx w2 V) as (rjx' & w3 & E3 & Lrjx' & L3 & Hseg); auto; [lia|].
  rewrite E3. cbn [bind].
  destruct (fill_prefix_ok (c_ncol c) (-1)%Z w3) as (w4 & E4 & L4 & M4); [lia|].
  rewrite E4. cbn [bind].
  assert (Hrn : rstart ts (c_nrow c) = c_nnz c) by (now apply rstart_nrow).
  destruct (dedup_rows_jx_ok T zero add ts (c_nrow c) (c_ncol c) rp' rjx' rc w4)
    as (rjx2 & rc2 & w5 & E5 & L5 & Lrc2 & L6 & Hdd); auto; try lia.
  { now apply coo_cols_lt. }
  rewrite E5. cbn [bind].
  destruct (fix_row_pointers_ok (c_nrow c) (r_bp s) rc2) as (bp & E6 & Lbp & Hbp); auto.
  rewrite E6. cbn [bind].
  destruct (sort_rows_ok ts (c_nrow c) rp' rc2 rjx2 (r_bj s) (r_bx s))
    as (rjx3 & bj & bx & k & E7 & L7 & L8 & L9 & Hrows); auto; try lia.
  rewrite E7. cbn [bind]. eexists. split; [reflexivity|].
  assert (Hlen : forall i, i < c_nrow c -> nth i rc2 0 = length (spec_row T zero add ts (c_ncol c) i)).
  { intros i Hi. rewrite <- spec_row_eq by (now apply coo_cols_lt).
    rewrite <- (Permutation_length (sort_perm T _)). now apply Hdd. }
  assert (Hpn : psum (fun b => nth b rc2 0) (c_nrow c) <= c_nnz c).
  { rewrite <- Hrn. unfold start. generalize (Nat.le_refl (c_nrow c)).
    generalize (c_nrow c) at 1 3 4. induction n as [|n IH]; intros Hn; cbn [psum]; [lia|].
    specialize (IH ltac:(lia)). destruct (Hdd n) as [Hq _]; [lia|].
    assert (Hd := dedup_length T zero add (raw_row ts n)). rewrite raw_row_length in Hd. lia. }
  splits.
  - unfold csr_ready; cbn [r_bp r_nrow r_bj r_bx r_w r_rp r_rjx r_rc r_ncol].
    splits; lia.
  - cbn [r_bx]. lia.
  - unfold csr_holds. cbn [r_sym r_nrow r_ncol r_bp r_bj r_bx]. splits; auto.
    + rewrite Hbp by lia. reflexivity.
    + rewrite Hbp by lia. lia.
    + rewrite Hbp by lia. lia.
    + intros i Hi. rewrite !Hbp by lia. rewrite Nat.add_1_r. cbn [psum]. split.
      * rewrite Hlen by assumption. reflexivity.
      * unfold csr_row; cbn [r_bp r_bj r_bx]. rewrite !Hbp by lia. rewrite Nat.add_1_r, seg_combine.
        rewrite Hrows by assumption. apply spec_row_eq. now apply coo_cols_lt.
Qed.

Lemma csr_from_coo_ok c :
  coo_valid c -> 1 <= c_nnz c ->
  exists s, csr_from_coo T zero add c = Ok s /\ csr_ready s /\ length (r_bx s) = c_nnz c /\
    csr_holds T zero add s (c_sym c) (c_nrow c) (c_ncol c) (coo_triplets c).
Proof.
  intros V Hn. unfold csr_from_coo. destruct (Nat.ltb_spec (c_nnz c) 1); [lia|].
  set (s0 := mkCsr _ _ _ _ _ _ _ _ _ _).
  destruct (csr_update_ok s0 c V) as (s & E & R & L & H0); auto.
  - unfold csr_ready, s0; cbn [r_bp r_nrow r_bj r_bx r_w r_rp r_rjx r_rc r_ncol].
    rewrite !repeat_length. splits; auto.
  - unfold s0; cbn [r_bx]. now rewrite repeat_length.
  - rewrite E. exists s. splits; auto. rewrite L. unfold s0; cbn [r_bx]. apply repeat_length.
Qed.

End P.
