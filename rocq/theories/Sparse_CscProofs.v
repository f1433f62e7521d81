(** COO -> CSC. *)
From Coq Require Import Permutation.
From Verif Require Import Base Dense_Model Sparse_Model Sparse_Spec Sparse_Lib Sparse_Dedup Sparse_CooProofs Sparse_Rows Sparse_CsrProofs.

Section P.
Variable T : Type.
Variable zero : T.
Variable add : T -> T -> T.
Implicit Types c : coo T.
Notation rstart ts b := (start row_of ts b).
Notation ddp := (dedup T zero add).

(** ** the CSC row stages simulate the CSR ones *)

Lemma vget_combine {A B} (l1 : list A) (l2 : list B) p :
  length l1 = length l2 ->
  vget (combine l1 l2) p = (x <- vget l1 p ;; y <- vget l2 p ;; Ok (x, y)).
Proof.
  revert l2 p; induction l1 as [|a l1 IH]; intros [|b l2] [|p] H; simpl in *; try lia; auto.
  unfold vget in *. cbn [nth_error]. apply IH. lia.
Qed.

Lemma vset_combine {A B} (l1 : list A) (l2 : list B) p x y :
  length l1 = length l2 ->
  vset (combine l1 l2) p (x, y) =
  (l1' <- vset l1 p x ;; l2' <- vset l2 p y ;; Ok (combine l1' l2')).
Proof.
  intros H. unfold vset. rewrite combine_length, <- H, Nat.min_id.
  destruct (p <? length l1); cbn [bind]; auto. now rewrite combine_upd.
Qed.

Lemma vset_length {A} (l l' : list A) p x : vset l p x = Ok l' -> length l' = length l.
Proof.
  unfold vset. destruct (p <? length l); intros H; inversion H. apply upd_length.
Qed.

Definition Rj (a : list nat * list T * list Z) (b : list (nat * T) * list Z) : Prop :=
  let '(rj, rx, w) := a in let '(rjx, w') := b in
  length rj = length rx /\ rjx = combine rj rx /\ w = w'.

Lemma scatter_rows_sim nnz ai aj ax rj rx w :
  length rj = length rx ->
  rel_res Rj (scatter_rows T nnz ai aj ax rj rx w) (scatter_rows_jx T nnz ai aj ax (combine rj rx) w).
Proof.
  intros HL. unfold scatter_rows, scatter_rows_jx. apply for_range_sim.
  - simpl. auto.
  - intros k [[rj1 rx1] w1] [rjx1 w1'] (H1 & -> & <-).
    destruct (vget ai k) as [i| |]; cbn [bind rel_res]; auto.
    destruct (vget w1 i) as [wi| |]; cbn [bind rel_res]; auto.
    destruct (as_index wi) as [p| |]; cbn [bind rel_res]; auto.
    destruct (vget aj k) as [j| |] eqn:Ej; cbn [bind rel_res]; auto.
    unfold vget in *. 
    destruct (nth_error ax k) as [x|]; cbn [bind rel_res].
    + rewrite vset_combine by assumption.
      destruct (vset rj1 p j) as [rj2| |] eqn:E2; cbn [bind rel_res]; auto.
      destruct (vset rx1 p x) as [rx2| |] eqn:E3; cbn [bind rel_res]; auto.
      destruct (vset w1 i (wi + 1)%Z); cbn [bind rel_res]; auto. simpl.
      apply vset_length in E2, E3. splits; auto. congruence.
    + unfold vset. destruct (p <? length rj1); cbn [bind]; exact I.
Qed.

Definition Rjd (a : list nat * list T * list Z * nat) (b : list (nat * T) * list Z * nat) : Prop :=
  let '(rj, rx, w, d) := a in let '(rjx, w', d') := b in
  length rj = length rx /\ rjx = combine rj rx /\ w = w' /\ d = d'.

Lemma dedup_row_sim p1 p2 rj rx w :
  length rj = length rx ->
  rel_res Rjd (dedup_row T add p1 p2 rj rx w) (dedup_row_jx T add p1 p2 (combine rj rx) w).
Proof.
  intros HL. unfold dedup_row, dedup_row_jx. apply for_range_sim.
  - simpl. auto.
  - intros p [[[rj1 rx1] w1] d1] [[rjx1 w1'] d1'] (H1 & -> & <- & <-).
    rewrite vget_combine by assumption.
    destruct (Nat.lt_ge_cases p (length rj1)) as [Hp|Hp].
    2:{ rewrite !vget_panic by lia. exact I. }
    rewrite (vget_ok rj1 _ 0), (vget_ok rx1 _ zero) by lia. cbn [bind].
    set (j := nth p rj1 0). set (x := nth p rx1 zero).
    destruct (vget w1 j) as [wj| |]; cbn [bind rel_res]; auto.
    destruct (Z.of_nat p1 <=? wj)%Z.
    + destruct (as_index wj) as [pj| |]; cbn [bind rel_res]; auto.
      rewrite vget_combine by assumption.
      destruct (Nat.lt_ge_cases pj (length rj1)) as [Hpj|Hpj].
      2:{ rewrite !vget_panic by lia. exact I. }
      rewrite (vget_ok rj1 _ 0), (vget_ok rx1 _ zero) by lia. cbn [bind].
      rewrite vset_combine by assumption. rewrite !vset_ok by lia. cbn [bind rel_res Rjd].
      rewrite upd_same, upd_length. splits; auto.
    + destruct (vset w1 j (Z.of_nat d1)) as [w2| |]; cbn [bind rel_res]; auto.
      destruct (negb (d1 =? p)); cbn [bind rel_res Rjd]; [|splits; auto].
      rewrite vset_combine by assumption.
      destruct (vset rj1 d1 j) as [rj2| |] eqn:E2; cbn [bind rel_res]; auto.
      destruct (vset rx1 d1 x) as [rx2| |] eqn:E3; cbn [bind rel_res Rjd]; auto.
      apply vset_length in E2, E3. splits; auto. congruence.
Qed.

Definition Rjc (a : list nat * list T * list nat * list Z) (b : list (nat * T) * list nat * list Z) : Prop :=
  let '(rj, rx, rc, w) := a in let '(rjx, rc', w') := b in
  length rj = length rx /\ rjx = combine rj rx /\ rc = rc' /\ w = w'.

Lemma dedup_rows_sim nrow rp rj rx rc w :
  length rj = length rx ->
  rel_res Rjc (dedup_rows T add nrow rp rj rx rc w) (dedup_rows_jx T add nrow rp (combine rj rx) rc w).
Proof.
  intros HL. unfold dedup_rows, dedup_rows_jx. apply for_range_sim.
  - simpl. auto.
  - intros i [[[rj1 rx1] rc1] w1] [[rjx1 rc1'] w1'] (H1 & -> & <- & <-).
    destruct (vget rp i) as [p1| |]; cbn [bind rel_res]; auto.
    destruct (vget rp (i + 1)) as [p2| |]; cbn [bind rel_res]; auto.
    eapply rel_bind; [now apply dedup_row_sim|].
    intros [[[rj2 rx2] w2] d2] [[rjx2 w2'] d2'] (H2 & -> & <- & <-).
    destruct (usub d2 p1) as [d| |]; cbn [bind rel_res]; auto.
    destruct (vset rc1 i d) as [rc2| |]; cbn [bind rel_res Rjc]; auto.
Qed.

Lemma rel_ok_r {A B} (R : A -> B -> Prop) x b : rel_res R x (Ok b) -> exists a, x = Ok a /\ R a b.
Proof. destruct x; simpl; try contradiction. eauto. Qed.

(** ** from the row form to the column form *)

(** the entries after summing duplicates, row by row: (row, (column, value)) *)
Definition dd_items (ts : list (nat * nat * T)) (nrow : nat) : list (nat * (nat * T)) :=
  flat_map (fun i => map (pair i) (ddp (raw_row ts i))) (seq 0 nrow).

Definition icol (a : nat * (nat * T)) : nat := fst (snd a).

(** nested loop over the rows of (rp, rc, rj, rx) *)
Lemma rows_loop {S} ts nrow rp rc rj rx (f : nat -> nat -> S -> res S)
    (body : nat * (nat * T) -> S -> res S) (s : S) :
  length rp = nrow + 1 -> length rc = nrow -> length rj = length rx ->
  (forall b, b <= nrow -> nth b rp 0 = rstart ts b) ->
  rstart ts nrow <= length rj ->
  (forall b, b < nrow ->
     nth b rc 0 = length (ddp (raw_row ts b)) /\
     seg (combine rj rx) (rstart ts b) (rstart ts b + nth b rc 0) = ddp (raw_row ts b)) ->
  (forall i p t, p < length rj -> f i p t = body (i, (nth p rj 0, nth p rx zero)) t) ->
  for_range 0 nrow (fun i st =>
    p1 <- vget rp i ;;
    c <- vget rc i ;;
    for_range p1 (p1 + c) (f i) st) s
  = for_each (dd_items ts nrow) body s.
Proof.
  intros Hrp Hrc HL Hst Hlen Hrow Hf. unfold dd_items. apply for_range_flat.
  intros i t Hi. rewrite (vget_ok _ _ 0) by lia. cbn [bind].
  rewrite (vget_ok _ _ 0) by lia. cbn [bind]. rewrite Hst by lia.
  destruct (Hrow i Hi) as [Hc Hs].
  assert (Hd := dedup_length T zero add (raw_row ts i)). rewrite raw_row_length in Hd.
  assert (Hm : rstart ts (Datatypes.S i) <= rstart ts nrow) by (apply start_mono; lia).
  rewrite start_S in Hm.
  rewrite (for_range_seg (combine rj rx) (fun a => body (i, a))).
  - rewrite Hs. rewrite for_each_map. reflexivity.
  - rewrite combine_length. lia.
  - intros k t' Hk. rewrite Hf by lia. rewrite vget_combine by assumption.
    rewrite (vget_ok rj _ 0), (vget_ok rx _ zero) by lia. reflexivity.
Qed.

Lemma dd_items_col_lt ts nrow ncol :
  Forall (fun t => col_of t < ncol) ts -> Forall (fun a => icol a < ncol) (dd_items ts nrow).
Proof.
  intros HF. apply Forall_forall. intros [i jx] Ha. apply in_flat_map in Ha.
  destruct Ha as (i' & _ & Ha). apply in_map_iff in Ha. destruct Ha as (jx' & E & Ha).
  inversion E; subst. unfold icol; cbn [snd].
  assert (HR : Forall (fun b => fst b < ncol) (raw_row ts i)).
  2:{ apply (dedup_keys_lt T zero add) in HR. rewrite Forall_forall in HR. now apply HR. }
  unfold raw_row. rewrite Forall_map. apply Forall_forall. intros t Ht. apply filter_In in Ht.
  rewrite Forall_forall in HF. apply HF. apply Ht.
Qed.

Lemma dd_items_length ts nrow : length (dd_items ts nrow) <= rstart ts nrow.
Proof.
  unfold dd_items, start. induction nrow as [|n IH]; [apply Nat.le_refl|].
  rewrite seq_S, flat_map_app, app_length. cbn [flat_map psum]. rewrite app_nil_r, map_length.
  assert (Hd := dedup_length T zero add (raw_row ts n)). rewrite raw_row_length in Hd.
  simpl in *. lia.
Qed.

Lemma bucket_dd_items ts nrow j :
  map (fun a => (fst a, snd (snd a))) (bucket icol j (dd_items ts nrow))
  = spec_column T zero add ts nrow j.
Proof.
  unfold dd_items, spec_column, bucket. induction (seq 0 nrow) as [|i l IH]; cbn [flat_map]; auto.
  rewrite filter_app, map_app, IH. f_equal.
  rewrite cell_cellv, <- kvals_raw_row, <- kvals_dedup. unfold kvals.
  induction (ddp (raw_row ts i)) as [|[j' x] l' IH']; cbn [map filter]; auto.
  unfold icol at 1; cbn [fst snd]. destruct (j' =? j); cbn [map fst snd]; [f_equal|]; exact IH'.
Qed.

Notation cstart ts nrow j := (start icol (dd_items ts nrow) j).

Lemma count_cols_ok ts nrow ncol rp rc rj rx w :
  length rp = nrow + 1 -> length rc = nrow -> length rj = length rx ->
  (forall b, b <= nrow -> nth b rp 0 = rstart ts b) ->
  rstart ts nrow <= length rj ->
  (forall b, b < nrow ->
     nth b rc 0 = length (ddp (raw_row ts b)) /\
     seg (combine rj rx) (rstart ts b) (rstart ts b + nth b rc 0) = ddp (raw_row ts b)) ->
  Forall (fun t => col_of t < ncol) ts ->
  ncol <= length w -> (forall j, j < ncol -> nth j w 0%Z = 0%Z) ->
  exists w', count_cols nrow rp rc rj w = Ok w' /\ length w' = length w /\
    forall j, j < ncol -> nth j w' 0%Z = Z.of_nat (cnt icol j (dd_items ts nrow)).
Proof.
  intros Hrp Hrc HL Hst Hlen Hrow HF Hw H0. unfold count_cols.
  rewrite (rows_loop ts nrow rp rc rj rx _
     (fun a w => x <- vget w (icol a) ;; vset w (icol a) (x + 1)%Z)); auto.
  2:{ intros i p t Hp. rewrite (vget_ok _ _ 0) by assumption. reflexivity. }
  apply (for_each_inv (fun pre w' => length w' = length w /\
    forall b, b < ncol -> nth b w' 0%Z = Z.of_nat (cnt icol b pre))).
  - auto.
  - intros pre a post w1 E [Hl H1].
    assert (Ha : icol a < ncol).
    { assert (HF' := dd_items_col_lt ts nrow ncol HF). rewrite Forall_forall in HF'. apply HF'. rewrite E.
      apply in_or_app. right. now left. }
    rewrite (vget_ok _ _ 0%Z) by lia. cbn [bind]. rewrite vset_ok by lia.
    eexists; split; [reflexivity|]. rewrite upd_length. split; auto.
    intros b Hb. rewrite nth_upd by lia. rewrite cnt_snoc.
    destruct (Nat.eqb_spec b (icol a)) as [->|Hne].
    + rewrite Nat.eqb_refl, H1 by assumption. lia.
    + destruct (Nat.eqb_spec (icol a) b); [lia|]. rewrite H1 by assumption. lia.
Qed.

Lemma col_pointers_ok {A} (key : A -> nat) items ncol bp w :
  length bp = ncol + 1 -> ncol <= length w ->
  (forall j, j < ncol -> nth j w 0%Z = Z.of_nat (cnt key j items)) ->
  exists bp', col_pointers_loop ncol bp w = Ok bp' /\ length bp' = ncol + 1 /\
    forall j, j <= ncol -> nth j bp' 0 = start key items j.
Proof.
  intros Hbp Hw Hc. unfold col_pointers_loop. rewrite vset_ok by lia. cbn [bind].
  match goal with |- context[for_range 0 ncol ?f ?s] =>
  destruct (for_range_inv (fun i r => length r = ncol + 1 /\
    (forall b, b <= i -> nth b r 0 = start key items b)) f 0 ncol s) as (r & E & H1 & H2)
  end; try lia.
  - rewrite upd_length. split; auto. intros b Hb. assert (b = 0) by lia. subst.
    now rewrite nth_upd_eq by lia.
  - intros i r Hi (H1 & H2).
    rewrite (vget_ok _ _ 0) by lia. cbn [bind].
    rewrite (vget_ok _ _ 0%Z) by lia. cbn [bind].
    rewrite Hc by lia. unfold as_index.
    destruct (Z.ltb_spec (Z.of_nat (cnt key i items)) 0); [lia|]. cbn [bind].
    rewrite Nat2Z.id, vset_ok by lia.
    eexists; split; [reflexivity|]. rewrite !upd_length. split; auto.
    intros b Hb. rewrite nth_upd by lia. destruct (Nat.eqb_spec b (i + 1)) as [->|].
    + rewrite Nat.add_1_r, start_S, H2 by lia. reflexivity.
    + apply H2. lia.
  - exists r. splits; auto.
Qed.

Lemma copy_pointers_ok ncol bp w :
  length bp = ncol + 1 -> ncol <= length w ->
  exists w', copy_pointers ncol bp w = Ok w' /\ length w' = length w /\
    forall j, j < ncol -> nth j w' 0%Z = Z.of_nat (nth j bp 0).
Proof.
  intros Hbp Hw. unfold copy_pointers.
  match goal with |- context[for_range 0 ncol ?f ?s] =>
  destruct (for_range_inv (fun i r => length r = length w /\
    (forall b, b < i -> nth b r 0%Z = Z.of_nat (nth b bp 0))) f 0 ncol s) as (r & E & H1 & H2)
  end; try lia.
  - split; auto. intros; lia.
  - intros i r Hi (H1 & H2). rewrite (vget_ok _ _ 0) by lia. cbn [bind]. rewrite vset_ok by lia.
    eexists; split; [reflexivity|]. rewrite upd_length. split; auto.
    intros b Hb. rewrite nth_upd by lia. destruct (Nat.eqb_spec b i) as [->|]; auto.
    apply H2. lia.
  - exists r. auto.
Qed.

Lemma scatter_cols_ok ts nrow ncol rp rc rj rx bi (bx : list T) w :
  length rp = nrow + 1 -> length rc = nrow -> length rj = length rx ->
  (forall b, b <= nrow -> nth b rp 0 = rstart ts b) ->
  rstart ts nrow <= length rj ->
  (forall b, b < nrow ->
     nth b rc 0 = length (ddp (raw_row ts b)) /\
     seg (combine rj rx) (rstart ts b) (rstart ts b + nth b rc 0) = ddp (raw_row ts b)) ->
  Forall (fun t => col_of t < ncol) ts ->
  ncol <= length w -> (forall j, j < ncol -> nth j w 0%Z = Z.of_nat (cstart ts nrow j)) ->
  cstart ts nrow ncol <= length bi -> cstart ts nrow ncol <= length bx ->
  exists bi' bx' w', scatter_cols T nrow rp rc rj rx bi bx w = Ok (bi', bx', w') /\
    length bi' = length bi /\ length bx' = length bx /\ length w' = length w /\
    forall j, j < ncol ->
      seg bi' (cstart ts nrow j) (cstart ts nrow (S j)) = map fst (bucket icol j (dd_items ts nrow)) /\
      seg bx' (cstart ts nrow j) (cstart ts nrow (S j)) = map (fun a => snd (snd a)) (bucket icol j (dd_items ts nrow)).
Proof.
  intros Hrp Hrc HL Hst Hlen Hrow HF Hw Hw0 Hbi Hbx. unfold scatter_cols.
  set (body := fun (a : nat * (nat * T)) (st : list nat * list T * list Z) =>
      let '(bi, bx, w) := st in
      wj <- vget w (icol a) ;;
      cp <- as_index wj ;;
      bi <- vset bi cp (fst a) ;;
      bx <- vset bx cp (snd (snd a)) ;;
      w <- vset w (icol a) (wj + 1)%Z ;;
      Ok (bi, bx, w)).
  rewrite (rows_loop ts nrow rp rc rj rx _ body); auto.
  2:{ intros i p [[bi1 bx1] w1] Hp. rewrite (vget_ok rj _ 0), (vget_ok rx _ zero) by lia. reflexivity. }
  set (items := dd_items ts nrow) in *.
  destruct (for_each_inv (fun pre (st : list nat * list T * list Z) =>
    let '(r, x, v) := st in
    length r = length bi /\ length x = length bx /\ length v = length w /\
    filled icol fst items pre ncol r /\ filled icol (fun a => snd (snd a)) items pre ncol x /\
    (forall b, b < ncol -> nth b v 0%Z = Z.of_nat (start icol items b + cnt icol b pre)))
    body items (bi, bx, w)) as ([[r x] v] & E & H1 & H2 & H3 & H4 & H5 & H6).
  - splits; auto; try apply filled_nil. intros b Hb. rewrite Hw0 by assumption. f_equal.
    unfold cnt, bucket. simpl. lia.
  - intros pre a post [[r x] v] E (H1 & H2 & H3 & H4 & H5 & H6).
    assert (Ha : icol a < ncol).
    { assert (HF' := dd_items_col_lt ts nrow ncol HF). rewrite Forall_forall in HF'. apply HF'.
      fold items. rewrite E. apply in_or_app. right. now left. }
    destruct (filled_step icol fst items ncol r pre a post E Ha ltac:(lia) H4) as [Hp HF1].
    destruct (filled_step icol (fun a => snd (snd a)) items ncol x pre a post E Ha ltac:(lia) H5) as [Hp2 HF2].
    unfold body. rewrite (vget_ok _ _ 0%Z) by lia. cbn [bind]. rewrite H6 by assumption.
    unfold as_index.
    destruct (Z.ltb_spec (Z.of_nat (start icol items (icol a) + cnt icol (icol a) pre)) 0); [lia|].
    cbn [bind]. rewrite Nat2Z.id, vset_ok by assumption. cbn [bind].
    rewrite vset_ok by assumption. cbn [bind]. rewrite vset_ok by lia. cbn [bind].
    eexists; split; [reflexivity|cbn beta iota]. rewrite !upd_length. splits; auto.
    intros b Hb. rewrite nth_upd by lia. rewrite cnt_snoc.
    destruct (Nat.eqb_spec b (icol a)) as [->|Hne].
    + rewrite Nat.eqb_refl. lia.
    + destruct (Nat.eqb_spec (icol a) b); [lia|]. rewrite H6 by assumption. lia.
  - exists r, x, v. splits; auto. intros j Hj. split; now apply filled_all with (n := ncol).
Qed.

Lemma csc_update_ok s c :
  coo_valid c -> csc_ready s ->
  c_sym c = s_sym s -> c_nrow c = s_nrow s -> c_ncol c = s_ncol s -> c_nnz c = length (s_bx s) ->
  exists s', csc_update_from_coo T zero add s c = Ok s' /\
    csc_ready s' /\ length (s_bx s') = length (s_bx s) /\
    csc_holds T zero add s' (c_sym c) (c_nrow c) (c_ncol c) (coo_triplets c).
Proof.
  intros V (R1 & R2 & R3) Hsym Hrow Hcol Hnnz. unfold csc_update_from_coo.
  rewrite Hsym, Hrow, Hcol, Hnnz, !Nat.eqb_refl.
  replace (sym_eqb (s_sym s) (s_sym s)) with true by (destruct (s_sym s); reflexivity).
  cbn [negb]. rewrite <- Hsym, <- Hrow, <- Hcol, <- Hnnz in *. set (ts := coo_triplets c).
  (* workspaces *)
  match goal with |- context[bind (if length (s_w s) =? 0 then ?a else ?b) _] =>
    assert (HW : exists rp rj rx rc w, (if length (s_w s) =? 0 then a else b) = Ok (rp, rj, rx, rc, w) /\
      length rp = c_nrow c + 1 /\ length rj = c_nnz c /\ length rx = c_nnz c /\ length rc = c_nrow c /\
      length w = Nat.max (c_nrow c) (c_ncol c) /\
      forall b0, b0 < c_nrow c -> nth b0 w 0%Z = 0%Z)
  end.
  { destruct R3 as [E|(A1 & A2 & A3 & A4 & A5)].
    - rewrite E. cbn [length Nat.eqb]. do 5 eexists. split; [reflexivity|].
      rewrite !repeat_length. splits; auto. intros b _. apply nth_repeat_d.
    - destruct (Nat.eqb_spec (length (s_w s)) 0) as [E|E].
      + do 5 eexists. split; [reflexivity|].
        rewrite !repeat_length. splits; auto. intros b _. apply nth_repeat_d.
      + destruct (fill_prefix_ok (c_nrow c) 0%Z (s_w s)) as (w & E1 & L & Z0); [lia|].
        rewrite E1. cbn [bind]. do 5 eexists. split; [reflexivity|]. splits; auto; lia. }
  destruct HW as (rp & rj & rx & rc & w & EW & Lrp & Lrj & Lrx & Lrc & Lw & Zw). rewrite EW. cbn [bind].
  destruct (count_rows_ok T zero c w V) as (w1 & E1 & L1 & C1); auto; [lia|].
  rewrite E1. cbn [bind].
  destruct (row_pointers_ok T ts (c_nrow c) rp w1) as (rp' & w2 & E2 & Lrp' & L2 & Hrp & Hw2); auto; [lia|].
  rewrite E2. cbn [bind].
  destruct (scatter_rows_jx_ok T zero c (combine rj rx) w2 V) as (rjx' & w3 & E3 & Lrjx' & L3 & Hseg); auto.
  { rewrite combine_length. lia. }
  { lia. }
  assert (SR := scatter_rows_sim (c_nnz c) (c_ii c) (c_jj c) (c_vv c) rj rx w2 ltac:(lia)).
  rewrite E3 in SR. apply rel_ok_r in SR.
  destruct SR as ([[rj' rx'] w3'] & E3' & HL' & -> & ->).
  rewrite E3'. cbn [bind]. rewrite !combine_length in Lrjx'.
  destruct (fill_prefix_ok (c_ncol c) (-1)%Z w3) as (w4 & E4 & L4 & M4); [lia|].
  rewrite E4. cbn [bind].
  assert (Hrn : rstart ts (c_nrow c) = c_nnz c) by (now apply rstart_nrow).
  assert (HF := coo_cols_lt T c V). fold ts in HF.
  destruct (dedup_rows_jx_ok T zero add ts (c_nrow c) (c_ncol c) rp' (combine rj' rx') rc w4)
    as (rjx2 & rc2 & w5 & E5 & L5 & Lrc2 & L6 & Hdd); auto; try lia.
  { rewrite combine_length. lia. }
  assert (SD := dedup_rows_sim (c_nrow c) rp' rj' rx' rc w4 HL').
  rewrite E5 in SD. apply rel_ok_r in SD.
  destruct SD as ([[[rj2 rx2] rc2'] w5'] & E5' & HL2 & -> & -> & ->).
  rewrite E5'. cbn [bind]. rewrite !combine_length in L5.
  destruct (fill_prefix_ok (c_ncol c) 0%Z w5) as (w6 & E6 & L7 & M6); [lia|].
  rewrite E6. cbn [bind].
  destruct (count_cols_ok ts (c_nrow c) (c_ncol c) rp' rc2 rj2 rx2 w6) as (w7 & E7 & L8 & C7); auto; try lia.
  rewrite E7. cbn [bind].
  destruct (col_pointers_ok icol (dd_items ts (c_nrow c)) (c_ncol c) (s_bp s) w7) as (bp & E8 & Lbp & Hbp); auto; try lia.
  rewrite E8. cbn [bind].
  destruct (copy_pointers_ok (c_ncol c) bp w7) as (w8 & E9 & L9 & Hw8); auto; try lia.
  rewrite E9. cbn [bind].
  assert (Hcn : cstart ts (c_nrow c) (c_ncol c) <= c_nnz c).
  { unfold start. rewrite psum_cnt by now apply dd_items_col_lt.
    rewrite <- Hrn. apply dd_items_length. }
  destruct (scatter_cols_ok ts (c_nrow c) (c_ncol c) rp' rc2 rj2 rx2 (s_bi s) (s_bx s) w8)
    as (bi & bx & w9 & E10 & L10 & L11 & L12 & Hcols); auto; try lia.
  { intros j Hj. rewrite Hw8 by assumption. rewrite Hbp by lia. reflexivity. }
  rewrite E10. cbn [bind]. eexists. split; [reflexivity|].
  splits.
  - unfold csc_ready; cbn [s_bp s_ncol s_bi s_bx s_w s_rp s_rj s_rx s_rc s_nrow].
    splits; lia.
  - cbn [s_bx]. lia.
  - unfold csc_holds. cbn [s_sym s_nrow s_ncol s_bp s_bi s_bx]. splits; auto.
    + rewrite Hbp by lia. reflexivity.
    + rewrite Hbp by lia. lia.
    + rewrite Hbp by lia. lia.
    + intros j Hj. rewrite !Hbp by lia. rewrite Nat.add_1_r, start_S. split.
      * rewrite <- bucket_dd_items, map_length. reflexivity.
      * unfold csc_column; cbn [s_bp s_bi s_bx]. rewrite !Hbp by lia. rewrite Nat.add_1_r, seg_combine.
        destruct (Hcols j Hj) as [H1 H2]. rewrite H1, H2, combine_map_pair.
        apply bucket_dd_items.
Qed.

Lemma csc_from_coo_ok c :
  coo_valid c -> 1 <= c_nnz c ->
  exists s, csc_from_coo T zero add c = Ok s /\ csc_ready s /\ length (s_bx s) = c_nnz c /\
    csc_holds T zero add s (c_sym c) (c_nrow c) (c_ncol c) (coo_triplets c).
Proof.
  intros V Hn. unfold csc_from_coo. destruct (Nat.ltb_spec (c_nnz c) 1); [lia|].
  set (s0 := mkCsc _ _ _ _ _ _ _ _ _ _ _).
  destruct (csc_update_ok s0 c V) as (s & E & R & L & H0); auto.
  - unfold csc_ready, s0; cbn [s_bp s_ncol s_bi s_bx s_w s_rp s_rj s_rx s_rc s_nrow].
    rewrite !repeat_length. splits; auto.
  - unfold s0; cbn [s_bx]. now rewrite repeat_length.
  - rewrite E. exists s. splits; auto. rewrite L. unfold s0; cbn [s_bx]. apply repeat_length.
Qed.

End P.
