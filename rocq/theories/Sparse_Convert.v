(** CSR <-> CSC. *)
From Verif Require Import Base Dense_Model Dense_Proofs Sparse_Model Sparse_Spec Sparse_Lib Sparse_Dedup Sparse_CooProofs Sparse_Rows Sparse_CsrProofs Sparse_CscProofs Sparse_Compressed.

Set Default Proof Using "Type".
Section P.
Variable T : Type.
Variable zero : T.
Variables add mul : T -> T -> T.
Notation icol := (icol T).

Lemma flat_seg {A} (l : list A) bp n len :
  pointers_ok n bp len -> len <= length l ->
  flat_map (fun b => seg l (nth b bp 0) (nth (b + 1) bp 0)) (seq 0 n) = seg l (nth 0 bp 0) (nth n bp 0).
Proof.
  intros HP HL.
  assert (G : forall m, m <= n ->
    flat_map (fun b => seg l (nth b bp 0) (nth (b + 1) bp 0)) (seq 0 m) = seg l (nth 0 bp 0) (nth m bp 0)).
  { induction m as [|m IH]; intros Hm.
    - simpl. now rewrite seg_nil.
    - rewrite seq_S, flat_map_app, IH by lia. cbn [flat_map]. rewrite app_nil_r, Nat.add_0_l, Nat.add_1_r.
      rewrite <- seg_app; auto.
      + eapply pointers_mono; eauto; lia.
      + eapply pointers_mono; eauto; lia.
      + assert (H := pointers_le n bp len (S m) HP Hm). lia. }
  now apply G.
Qed.

Lemma flat_map_map {A B C} (f : A -> list B) (g : B -> C) l :
  map g (flat_map f l) = flat_map (fun a => map g (f a)) l.
Proof. induction l; cbn [flat_map]; auto. rewrite map_app. congruence. Qed.

Lemma comp_items_cols n m bp bi (bx : list T) :
  compressed_wf n m bp bi bx ->
  map icol (comp_items n bp bi bx) = firstn (nth n bp 0) bi.
Proof.
  intros W. assert (HP := wf_pointers T _ _ _ _ _ W). destruct W as (H1 & H2 & H3 & H4 & H5 & _).
  unfold comp_items. rewrite flat_map_map.
  rewrite (flat_map_ext_in _ (fun b => seg bi (nth b bp 0) (nth (b + 1) bp 0))).
  - rewrite (flat_seg bi bp n (Nat.min (length bi) (length bx))); auto; [|lia].
    rewrite H2. unfold seg. now rewrite Nat.sub_0_r.
  - intros b Hb. apply in_seq in Hb. rewrite map_map.
    change (fun x => icol (b, x)) with (@fst nat T).
    assert (Hle := pointers_le _ _ _ (b + 1) HP ltac:(lia)).
    apply seg_fst_combine; try lia. apply H3. lia.
Qed.

Lemma comp_items_length n m bp bi (bx : list T) :
  compressed_wf n m bp bi bx -> length (comp_items n bp bi bx) = nth n bp 0.
Proof.
  intros W. rewrite <- (map_length icol), (comp_items_cols n m) by assumption.
  rewrite firstn_length. destruct W as (H1 & H2 & H3 & H4 & H5 & _). lia.
Qed.

Lemma comp_items_icol n m bp bi (bx : list T) :
  compressed_wf n m bp bi bx -> Forall (fun a => icol a < m) (comp_items n bp bi bx).
Proof.
  intros W. apply Forall_forall. intros [b [i x]] Hin.
  apply (comp_items_in T _ _ _ _ _ _ _ _ W) in Hin. apply Hin.
Qed.

Lemma compressed_transpose_ok nin nout ap aj (ax : list T) :
  compressed_wf nin nout ap aj ax ->
  exists bp bi bx, compressed_transpose T zero nin nout ap aj ax = Ok (bp, bi, bx) /\
    let items := comp_items nin ap aj ax in
    length bp = nout + 1 /\ (forall j, j <= nout -> nth j bp 0 = start icol items j) /\
    length bi = length items /\ length bx = length items /\
    forall j, j < nout ->
      seg bi (start icol items j) (start icol items (S j)) = map fst (bucket icol j items) /\
      seg bx (start icol items j) (start icol items (S j)) = map (fun a => snd (snd a)) (bucket icol j items).
Proof.
  intros W. assert (HP := wf_pointers T _ _ _ _ _ W).
  assert (Wl := comp_items_length _ _ _ _ _ W).
  assert (Wc := comp_items_cols _ _ _ _ _ W).
  assert (Wi := comp_items_icol _ _ _ _ _ W).
  assert (W' := W). destruct W' as (H1 & H2 & H3 & H4 & H5 & _).
  set (items := comp_items nin ap aj ax) in *. cbn zeta.
  assert (Hsn : start icol items nout = length items) by (unfold start; now apply psum_cnt).
  unfold compressed_transpose. rewrite (vget_ok _ _ 0) by lia. cbn [bind]. rewrite <- Wl.
  (* counts *)
  rewrite (for_range_vget (map icol items) (fun j bp => x <- vget bp j ;; vset bp j (x + 1))).
  2:{ now rewrite map_length. }
  2:{ intros k t Hk. rewrite Wc, (vget_ok (firstn _ _) _ 0) by (rewrite firstn_length; lia). cbn [bind].
      rewrite nth_firstn_lt by lia. now rewrite (vget_ok aj _ 0) by lia. }
  rewrite for_each_map.
  destruct (for_each_inv (fun pre bp => length bp = nout + 1 /\
     forall j, j < nout -> nth j bp 0 = cnt icol j pre)
     (fun b bp => x <- vget bp (icol b) ;; vset bp (icol b) (x + 1)) items (repeat 0 (nout + 1)))
    as (bp1 & E1 & L1 & C1).
  { rewrite repeat_length. split; auto. intros j Hj. apply nth_repeat_d. }
  { intros pre a post t E [L C].
    assert (Ha : icol a < nout).
    { rewrite Forall_forall in Wi. apply Wi. rewrite E. apply in_or_app. right. now left. }
    rewrite (vget_ok _ _ 0) by lia. cbn [bind]. rewrite vset_ok by lia.
    eexists; split; [reflexivity|]. rewrite upd_length. split; auto.
    intros j Hj. rewrite nth_upd by lia. rewrite cnt_snoc.
    destruct (Nat.eqb_spec j (icol a)) as [->|Hne].
    - rewrite Nat.eqb_refl. rewrite C by assumption. reflexivity.
    - destruct (Nat.eqb_spec (icol a) j); [lia|]. rewrite C by assumption. lia. }
  rewrite E1. cbn [bind].
  (* cumulative sum *)
  match goal with |- context[for_range 0 nout ?f ?s] =>
  destruct (for_range_inv (fun i (st : list nat * nat) => let '(bp, sum) := st in
     length bp = nout + 1 /\ sum = start icol items i /\
     (forall j, j < i -> nth j bp 0 = start icol items j) /\
     (forall j, i <= j -> nth j bp 0 = nth j bp1 0)) f 0 nout s) as ([bp2 sum] & E2 & L2 & S2 & P2 & Q2)
  end; try lia.
  { splits; auto. intros; lia. }
  { intros i [bp sum] Hi (L & S & P & Q). rewrite (vget_ok _ _ 0) by lia. cbn [bind].
    rewrite vset_ok by lia. cbn [bind]. eexists; split; [reflexivity|cbn beta iota].
    rewrite upd_length. splits; auto.
    - rewrite start_S, Q, C1 by lia. now rewrite S.
    - intros j Hj. rewrite nth_upd by lia. destruct (Nat.eqb_spec j i) as [->|]; auto. apply P. lia.
    - intros j Hj. rewrite nth_upd by lia. destruct (Nat.eqb_spec j i); [lia|]. apply Q. lia. }
  rewrite E2. cbn [bind]. rewrite vset_ok by lia. cbn [bind].
  set (bp3 := upd bp2 nout (length items)).
  assert (P3 : forall j, j <= nout -> nth j bp3 0 = start icol items j).
  { intros j Hj. unfold bp3. rewrite nth_upd by lia. destruct (Nat.eqb_spec j nout) as [->|]; auto.
    apply P2. lia. }
  assert (L3 : length bp3 = nout + 1) by (unfold bp3; now rewrite upd_length).
  (* scatter *)
  set (body := fun (a : nat * (nat * T)) (st : list nat * list nat * list T) =>
      let '(bp, bi, bx) := st in
        dest <- vget bp (icol a) ;;
        bi <- vset bi dest (fst a) ;;
        bx <- vset bx dest (snd (snd a)) ;;
        bp <- vset bp (icol a) (dest + 1) ;;
        Ok (bp, bi, bx)).
  rewrite (comp_loop T zero nin ap aj ax _ body); auto.
  2:{ intros b p [[bp bi] bx] Hb Hp1 Hp2. rewrite (vget_ok aj _ 0), (vget_ok ax _ zero) by lia. reflexivity. }
  fold items.
  destruct (for_each_inv (fun pre (st : list nat * list nat * list T) =>
    let '(bp, bi, bx) := st in
    length bp = nout + 1 /\ length bi = length items /\ length bx = length items /\
    filled icol fst items pre nout bi /\ filled icol (fun a => snd (snd a)) items pre nout bx /\
    (forall b, b < nout -> nth b bp 0 = start icol items b + cnt icol b pre))
    body items (bp3, repeat 0 (length items), repeat zero (length items)))
    as ([[bp4 bi] bx] & E4 & K1 & K2 & K3 & K4 & K5 & K6).
  { rewrite !repeat_length. splits; auto; try apply filled_nil.
    intros b Hb. rewrite P3 by lia. unfold cnt, bucket. simpl. lia. }
  { intros pre a post [[bp bi] bx] E (A1 & A2 & A3 & A4 & A5 & A6).
    assert (Ha : icol a < nout).
    { rewrite Forall_forall in Wi. apply Wi. rewrite E. apply in_or_app. right. now left. }
    destruct (filled_step icol fst items nout bi pre a post E Ha ltac:(lia) A4) as [Hp HF1].
    destruct (filled_step icol (fun a => snd (snd a)) items nout bx pre a post E Ha ltac:(lia) A5) as [Hp2 HF2].
    unfold body. rewrite (vget_ok _ _ 0) by lia. cbn [bind]. rewrite A6 by assumption.
    rewrite vset_ok by assumption. cbn [bind].
    rewrite vset_ok by assumption. cbn [bind]. rewrite vset_ok by lia. cbn [bind].
    eexists; split; [reflexivity|cbn beta iota]. rewrite !upd_length. splits; auto.
    intros b Hb. rewrite nth_upd by lia. rewrite cnt_snoc.
    destruct (Nat.eqb_spec b (icol a)) as [->|Hne].
    + rewrite Nat.eqb_refl. lia.
    + destruct (Nat.eqb_spec (icol a) b); [lia|]. rewrite A6 by assumption. lia. }
  rewrite E4. cbn [bind].
  (* shift the pointers back *)
  match goal with |- context[for_range 0 (nout + 1) ?f ?s] =>
  destruct (for_range_inv (fun i (st : list nat * nat) => let '(bp, last) := st in
     length bp = nout + 1 /\ last = (match i with 0 => 0 | S i' => nth i' bp4 0 end) /\
     (forall j, j < i -> nth j bp 0 = (match j with 0 => 0 | S j' => nth j' bp4 0 end)) /\
     (forall j, i <= j -> nth j bp 0 = nth j bp4 0)) f 0 (nout + 1) s) as ([bp5 last] & E5 & L5 & S5 & P5 & Q5)
  end; try lia.
  { splits; auto. intros; lia. }
  { intros i [bp last] Hi (L & S & P & Q). rewrite (vget_ok _ _ 0) by lia. cbn [bind].
    rewrite vset_ok by lia. cbn [bind]. eexists; split; [reflexivity|cbn beta iota].
    rewrite upd_length. splits; auto.
    - intros j Hj. rewrite nth_upd by lia. destruct (Nat.eqb_spec j i) as [->|]; auto. apply P. lia.
    - intros j Hj. rewrite nth_upd by lia. destruct (Nat.eqb_spec j i); [lia|]. apply Q. lia. }
  rewrite E5. cbn [bind]. exists bp5, bi, bx. split; [reflexivity|]. splits; auto.
  - intros j Hj. rewrite P5 by lia. destruct j as [|j]; [reflexivity|].
    rewrite K6 by lia. reflexivity.
  - intros j Hj. split; now apply filled_all with (n := nout).
Qed.

(** the content of a bucket of the result *)
Lemma bucket_items (row : nat -> list (nat * T)) n j :
  map (fun a => (fst a, snd (snd a))) (bucket icol j (flat_map (fun i => map (pair i) (row i)) (seq 0 n)))
  = flat_map (fun i => map (fun x => (i, x)) (kvals j (row i))) (seq 0 n).
Proof.
  unfold bucket. induction (seq 0 n) as [|i l IH]; cbn [flat_map]; auto.
  rewrite filter_app, map_app, IH. f_equal. unfold kvals.
  induction (row i) as [|[j' x] l' IH']; cbn [map filter]; auto.
  change (icol (i, (j', x))) with j'. cbn [fst]. destruct (j' =? j); cbn [map fst snd]; [f_equal|]; exact IH'.
Qed.

Lemma kvals_increasing_le1 (l : list (nat * T)) lo j :
  increasing_from lo (map fst l) -> length (kvals j l) <= 1.
Proof.
  assert (G : forall (l0 : list (nat * T)) lo, increasing_from lo (map fst l0) -> j < lo -> kvals j l0 = []).
  { induction l0 as [|a t IH]; intros lo0 H Hj; auto. cbn [map increasing_from] in H.
    destruct H as [H1 H2]. rewrite kvals_cons.
    destruct (Nat.eqb_spec (fst a) j); [lia|]. rewrite (IH (S (fst a))); auto. lia. }
  revert lo; induction l as [|a l IH]; intros lo H; [simpl; lia|].
  cbn [map increasing_from] in H. destruct H as [H1 H2]. rewrite kvals_cons.
  destruct (Nat.eqb_spec (fst a) j); cbn [app length].
  - rewrite (G l (S (fst a))); auto. lia.
  - eapply IH; eauto.
Qed.

(** Result of a transposition: all the facts needed for both directions. *)
Lemma transpose_facts nin nout ap aj (ax : list T) :
  compressed_wf nin nout ap aj ax ->
  exists bp bi bx, compressed_transpose T zero nin nout ap aj ax = Ok (bp, bi, bx) /\
    compressed_wf nout nin bp bi bx /\
    length bi = nth nin ap 0 /\ length bx = nth nin ap 0 /\ nth nout bp 0 = nth nin ap 0 /\
    forall j, j < nout ->
      nth (j + 1) bp 0 = nth j bp 0 + length (seg (combine bi bx) (nth j bp 0) (nth (j + 1) bp 0)) /\
      seg (combine bi bx) (nth j bp 0) (nth (j + 1) bp 0) =
      flat_map (fun i => map (fun x => (i, x))
        (kvals j (seg (combine aj ax) (nth i ap 0) (nth (i + 1) ap 0)))) (seq 0 nin).
Proof.
  intros W. destruct (compressed_transpose_ok nin nout ap aj ax W) as (bp & bi & bx & E & L & P & Li & Lx & H).
  exists bp, bi, bx. split; [exact E|]. cbn zeta in *.
  set (items := comp_items nin ap aj ax) in *.
  assert (Hlen : length items = nth nin ap 0) by (eapply comp_items_length; eauto).
  assert (Hsn : start icol items nout = length items).
  { unfold start. apply psum_cnt. eapply comp_items_icol; eauto. }
  assert (Hcol : forall j, j < nout ->
     seg (combine bi bx) (nth j bp 0) (nth (j + 1) bp 0) =
      flat_map (fun i => map (fun x => (i, x))
        (kvals j (seg (combine aj ax) (nth i ap 0) (nth (i + 1) ap 0)))) (seq 0 nin)).
  { intros j Hj. rewrite seg_combine, !P, Nat.add_1_r by lia. destruct (H j Hj) as [-> ->].
    rewrite combine_map_pair. unfold items, comp_items. apply bucket_items. }
  assert (Hst : forall j, j < nout -> nth (j + 1) bp 0 = nth j bp 0 + cnt icol j items).
  { intros j Hj. rewrite !P, Nat.add_1_r by lia. apply start_S. }
  assert (Hn : nth nout bp 0 = length items) by (rewrite P by lia; exact Hsn).
  assert (HP : pointers_ok nout bp (Nat.min (length bi) (length bx))).
  { apply holds_pointers with (len := fun j => cnt icol j items); auto. lia. }
  splits; try lia.
  - unfold compressed_wf. splits; auto; try lia.
    + rewrite P by lia. reflexivity.
    + intros b Hb. rewrite Hst by assumption. lia.
    + intros b Hb. assert (Hle := pointers_le _ _ _ (b + 1) HP ltac:(lia)).
      assert (Hsb := Hst b Hb).
      rewrite <- (seg_fst_combine bi bx) by lia.
      rewrite Hcol by assumption. split.
      * apply flat_cells_increasing. intros i.
        destruct (Nat.lt_ge_cases i nin) as [Hi|Hi].
        -- destruct W as (W1 & W2 & W3 & W4 & W5 & W6). apply kvals_increasing_le1 with (lo := 0).
           assert (HPa : pointers_ok nin ap (Nat.min (length aj) (length ax))) by (repeat split; auto; lia).
           assert (Hla := pointers_le _ _ _ (i + 1) HPa ltac:(lia)).
           specialize (W3 i Hi). rewrite seg_fst_combine by lia. now apply W6.
        -- destruct W as (W1 & _). rewrite seg_nil; [simpl; lia|].
           rewrite (nth_overflow ap (n := i + 1)) by lia. lia.
      * apply flat_cells_lt.
  - intros j Hj. split; [|now apply Hcol].
    assert (Hle := pointers_le _ _ _ (j + 1) HP ltac:(lia)).
    assert (Hsb := Hst j Hj).
    rewrite seg_length; [lia|lia|rewrite combine_length; lia].
Qed.

Lemma flat_map_nil {A B} (f : A -> list B) l : (forall a, In a l -> f a = []) -> flat_map f l = [].
Proof.
  induction l as [|a l IH]; intros H; cbn [flat_map]; auto.
  rewrite H by (now left). apply IH. intros; apply H. now right.
Qed.

Lemma csc_from_csr_ok (r : csr T) :
  csr_wf r ->
  exists s, csc_from_csr T zero r = Ok s /\ csc_wf s /\
    s_sym s = r_sym r /\ s_nrow s = r_nrow r /\ s_ncol s = r_ncol r /\
    length (csc_triplets s) = length (csr_triplets r) /\
    forall i j, vals_at (csc_triplets s) i j = vals_at (csr_triplets r) i j.
Proof.
  intros (W1 & W2 & W3 & W). unfold csc_from_csr.
  destruct (transpose_facts _ _ _ _ _ W) as (bp & bi & bx & E & Wc & Li & Lx & Ln & H).
  rewrite E. cbn [bind]. eexists; split; [reflexivity|].
  set (s := mkCsc _ _ _ _ _ _ _ _ _ _ _).
  assert (Ws : csc_wf s) by (unfold csc_wf, s; cbn [s_nrow s_ncol s_sym s_bp s_bi s_bx]; auto).
  splits; auto.
  - rewrite csc_triplets_items, csr_triplets_items, !map_length.
    rewrite (comp_items_length _ _ _ _ _ W).
    destruct Ws as (_ & _ & _ & Ws). rewrite (comp_items_length _ _ _ _ _ Ws).
    unfold s; cbn [s_ncol s_bp]. exact Ln.
  - intros i j. destruct (Nat.lt_ge_cases j (r_ncol r)) as [Hj|Hj].
    + destruct (Nat.lt_ge_cases i (r_nrow r)) as [Hi|Hi].
      * rewrite vals_at_csc by (unfold s; cbn [s_ncol]; assumption).
        rewrite vals_at_csr by assumption.
        unfold csc_column, s; cbn [s_bi s_bx s_bp]. destruct (H j Hj) as [_ ->].
        unfold csr_row.
        apply (kvals_cells T (fun i => kvals j (seg (combine (r_bj r) (r_bx r)) (nth i (r_bp r) 0) (nth (i + 1) (r_bp r) 0)))).
        assumption.
      * assert (G : forall nr nc (ts : list (nat * nat * T)), Forall (in_range nr nc) ts -> nr <= i -> vals_at ts i j = []).
        { intros nr nc ts HF Hle. unfold vals_at. induction HF as [|t ts Ht HF IH]; auto. cbn [filter].
          unfold at_pos at 1. destruct Ht as [Ht _]. destruct (Nat.eqb_spec (row_of t) i); [lia|]. exact IH. }
        rewrite (G _ _ _ (csc_trip_range T s Ws)) by assumption.
        rewrite (G (r_nrow r) (r_ncol r)); auto. apply csr_trip_range. unfold csr_wf; auto.
    + assert (G : forall nr nc (ts : list (nat * nat * T)), Forall (in_range nr nc) ts -> nc <= j -> vals_at ts i j = []).
      { intros nr nc ts HF Hle. unfold vals_at. induction HF as [|t ts Ht HF IH]; auto. cbn [filter].
        unfold at_pos at 1. destruct Ht as [_ Ht]. destruct (Nat.eqb_spec (col_of t) j); [lia|].
        rewrite andb_false_r. exact IH. }
      rewrite (G _ _ _ (csc_trip_range T s Ws)) by assumption.
      rewrite (G (r_nrow r) (r_ncol r)); auto. apply csr_trip_range. unfold csr_wf; auto.
Qed.

Lemma csr_from_csc_ok (s : csc T) :
  csc_wf s ->
  exists r, csr_from_csc T zero s = Ok r /\ csr_wf r /\
    r_sym r = s_sym s /\ r_nrow r = s_nrow s /\ r_ncol r = s_ncol s /\
    length (csr_triplets r) = length (csc_triplets s) /\
    forall i j, vals_at (csr_triplets r) i j = vals_at (csc_triplets s) i j.
Proof.
  intros (W1 & W2 & W3 & W). unfold csr_from_csc.
  destruct (transpose_facts _ _ _ _ _ W) as (bp & bi & bx & E & Wc & Li & Lx & Ln & H).
  rewrite E. cbn [bind]. eexists; split; [reflexivity|].
  set (r := mkCsr _ _ _ _ _ _ _ _ _ _).
  assert (Wr : csr_wf r) by (unfold csr_wf, r; cbn [r_nrow r_ncol r_sym r_bp r_bj r_bx]; auto).
  splits; auto.
  - rewrite csc_triplets_items, csr_triplets_items, !map_length.
    rewrite (comp_items_length _ _ _ _ _ W).
    destruct Wr as (_ & _ & _ & Wr). rewrite (comp_items_length _ _ _ _ _ Wr).
    unfold r; cbn [r_nrow r_bp]. exact Ln.
  - intros i j. destruct (Nat.lt_ge_cases i (s_nrow s)) as [Hi|Hi].
    + destruct (Nat.lt_ge_cases j (s_ncol s)) as [Hj|Hj].
      * rewrite vals_at_csc by assumption.
        rewrite vals_at_csr by (unfold r; cbn [r_nrow]; assumption).
        unfold csr_row, r; cbn [r_bj r_bx r_bp]. destruct (H i Hi) as [_ ->].
        unfold csc_column.
        apply (kvals_cells T (fun j => kvals i (seg (combine (s_bi s) (s_bx s)) (nth j (s_bp s) 0) (nth (j + 1) (s_bp s) 0)))).
        assumption.
      * assert (G : forall nr nc (ts : list (nat * nat * T)), Forall (in_range nr nc) ts -> nc <= j -> vals_at ts i j = []).
        { intros nr nc ts HF Hle. unfold vals_at. induction HF as [|t ts Ht HF IH]; auto. cbn [filter].
          unfold at_pos at 1. destruct Ht as [_ Ht]. destruct (Nat.eqb_spec (col_of t) j); [lia|].
          rewrite andb_false_r. exact IH. }
        rewrite (G _ _ _ (csr_trip_range T r Wr)) by assumption.
        rewrite (G (s_nrow s) (s_ncol s)); auto. apply csc_trip_range. unfold csc_wf; auto.
    + assert (G : forall nr nc (ts : list (nat * nat * T)), Forall (in_range nr nc) ts -> nr <= i -> vals_at ts i j = []).
      { intros nr nc ts HF Hle. unfold vals_at. induction HF as [|t ts Ht HF IH]; auto. cbn [filter].
        unfold at_pos at 1. destruct Ht as [Ht _]. destruct (Nat.eqb_spec (row_of t) i); [lia|]. exact IH. }
      rewrite (G _ _ _ (csr_trip_range T r Wr)) by assumption.
      rewrite (G (s_nrow s) (s_ncol s)); auto. apply csc_trip_range. unfold csc_wf; auto.
Qed.

(** ** uniqueness: a well-formed compressed matrix is determined by its entries *)

Lemma column_determined (s : csc T) j :
  csc_wf s -> j < s_ncol s ->
  csc_column s j = flat_map (fun i => map (pair i) (vals_at (csc_triplets s) i j)) (seq 0 (s_nrow s)).
Proof.
  intros (W1 & W2 & W3 & W) Hj. assert (HP := wf_pointers T _ _ _ _ _ W).
  assert (W' := W). destruct W' as (A1 & A2 & A3 & A4 & A5 & A6).
  assert (Hle := pointers_le _ _ _ (j + 1) HP ltac:(lia)).
  specialize (A3 j Hj).
  assert (B1 : increasing_from 0 (map fst (csc_column s j))).
  { unfold csc_column. rewrite seg_fst_combine by lia. now apply A6. }
  assert (B2 : Forall (fun a => fst a < 0 + s_nrow s) (csc_column s j)).
  { assert (HF := proj2 (A6 j Hj)). rewrite <- (seg_fst_combine (s_bi s) (s_bx s)) in HF by lia.
    now rewrite Forall_map in HF. }
  etransitivity; [apply (sinc_flat T (csc_column s j) (s_nrow s) 0 B1 B2)|].
  apply flat_map_ext_in. intros i _. f_equal. now rewrite vals_at_csc.
Qed.

Lemma row_determined (s : csr T) i :
  csr_wf s -> i < r_nrow s ->
  csr_row s i = flat_map (fun j => map (pair j) (vals_at (csr_triplets s) i j)) (seq 0 (r_ncol s)).
Proof.
  intros (W1 & W2 & W3 & W) Hi. assert (HP := wf_pointers T _ _ _ _ _ W).
  assert (W' := W). destruct W' as (A1 & A2 & A3 & A4 & A5 & A6).
  assert (Hle := pointers_le _ _ _ (i + 1) HP ltac:(lia)).
  specialize (A3 i Hi).
  assert (B1 : increasing_from 0 (map fst (csr_row s i))).
  { unfold csr_row. rewrite seg_fst_combine by lia. now apply A6. }
  assert (B2 : Forall (fun a => fst a < 0 + r_ncol s) (csr_row s i)).
  { assert (HF := proj2 (A6 i Hi)). rewrite <- (seg_fst_combine (r_bj s) (r_bx s)) in HF by lia.
    now rewrite Forall_map in HF. }
  etransitivity; [apply (sinc_flat T (csr_row s i) (r_ncol s) 0 B1 B2)|].
  apply flat_map_ext_in. intros j _. f_equal. now rewrite vals_at_csr.
Qed.

Lemma csr_pointer_eq (s : csr T) i :
  csr_wf s -> i < r_nrow s -> nth (i + 1) (r_bp s) 0 = nth i (r_bp s) 0 + length (csr_row s i).
Proof.
  intros (W1 & W2 & W3 & W) Hi. assert (HP := wf_pointers T _ _ _ _ _ W).
  destruct W as (A1 & A2 & A3 & A4 & A5 & A6).
  assert (Hle := pointers_le _ _ _ (i + 1) HP ltac:(lia)). specialize (A3 i Hi).
  unfold csr_row. rewrite seg_length; [lia|lia|rewrite combine_length; lia].
Qed.

Lemma csc_pointer_eq (s : csc T) i :
  csc_wf s -> i < s_ncol s -> nth (i + 1) (s_bp s) 0 = nth i (s_bp s) 0 + length (csc_column s i).
Proof.
  intros (W1 & W2 & W3 & W) Hi. assert (HP := wf_pointers T _ _ _ _ _ W).
  destruct W as (A1 & A2 & A3 & A4 & A5 & A6).
  assert (Hle := pointers_le _ _ _ (i + 1) HP ltac:(lia)). specialize (A3 i Hi).
  unfold csc_column. rewrite seg_length; [lia|lia|rewrite combine_length; lia].
Qed.

(** equal entries: equal pointers and rows *)
Lemma csr_unique (a b : csr T) :
  csr_wf a -> csr_wf b -> r_nrow a = r_nrow b -> r_ncol a = r_ncol b ->
  (forall i j, i < r_nrow a -> j < r_ncol a -> vals_at (csr_triplets a) i j = vals_at (csr_triplets b) i j) ->
  r_bp a = r_bp b /\ forall i, i < r_nrow a -> csr_row a i = csr_row b i.
Proof.
  intros Wa Wb Hr Hc HV.
  assert (HR : forall i, i < r_nrow a -> csr_row a i = csr_row b i).
  { intros i Hi. rewrite (row_determined a i Wa Hi), (row_determined b i Wb) by lia.
    rewrite <- Hc. apply flat_map_ext_in. intros j Hj. apply in_seq in Hj. rewrite HV by lia. reflexivity. }
  split; auto.
  assert (La : length (r_bp a) = r_nrow a + 1) by apply Wa.
  assert (Lb : length (r_bp b) = r_nrow b + 1) by apply Wb.
  apply nth_ext_d with (d := 0); [lia|]. intros i Hi. rewrite La in Hi.
  induction i as [|i IH].
  - destruct Wa as (_ & _ & _ & Wa), Wb as (_ & _ & _ & Wb).
    transitivity 0; [apply Wa|symmetry; apply Wb].
  - rewrite <- Nat.add_1_r, !csr_pointer_eq by (auto; lia). rewrite IH, HR by lia. reflexivity.
Qed.

Lemma csc_unique (a b : csc T) :
  csc_wf a -> csc_wf b -> s_nrow a = s_nrow b -> s_ncol a = s_ncol b ->
  (forall i j, i < s_nrow a -> j < s_ncol a -> vals_at (csc_triplets a) i j = vals_at (csc_triplets b) i j) ->
  s_bp a = s_bp b /\ forall i, i < s_ncol a -> csc_column a i = csc_column b i.
Proof.
  intros Wa Wb Hr Hc HV.
  assert (HR : forall i, i < s_ncol a -> csc_column a i = csc_column b i).
  { intros i Hi. rewrite (column_determined a i Wa Hi), (column_determined b i Wb) by lia.
    rewrite <- Hr. apply flat_map_ext_in. intros j Hj. apply in_seq in Hj. rewrite HV by lia. reflexivity. }
  split; auto.
  assert (La : length (s_bp a) = s_ncol a + 1) by apply Wa.
  assert (Lb : length (s_bp b) = s_ncol b + 1) by apply Wb.
  apply nth_ext_d with (d := 0); [lia|]. intros i Hi. rewrite La in Hi.
  induction i as [|i IH].
  - destruct Wa as (_ & _ & _ & Wa), Wb as (_ & _ & _ & Wb).
    transitivity 0; [apply Wa|symmetry; apply Wb].
  - rewrite <- Nat.add_1_r, !csc_pointer_eq by (auto; lia). rewrite IH, HR by lia. reflexivity.
Qed.

Lemma csr_roundtrip (r : csr T) :
  csr_wf r ->
  exists s r', csc_from_csr T zero r = Ok s /\ csr_from_csc T zero s = Ok r' /\
    r_sym r' = r_sym r /\ r_nrow r' = r_nrow r /\ r_ncol r' = r_ncol r /\
    r_bp r' = r_bp r /\ forall i, i < r_nrow r -> csr_row r' i = csr_row r i.
Proof.
  intros W. destruct (csc_from_csr_ok r W) as (s & E1 & Ws & A1 & A2 & A3 & _ & A4).
  destruct (csr_from_csc_ok s Ws) as (r' & E2 & Wr & B1 & B2 & B3 & _ & B4).
  destruct (csr_unique r' r Wr W) as [C1 C2]; try congruence.
  exists s, r'. splits; auto; try congruence. intros i Hi. apply C2. congruence.
Qed.

Lemma csc_roundtrip (s : csc T) :
  csc_wf s ->
  exists r s', csr_from_csc T zero s = Ok r /\ csc_from_csr T zero r = Ok s' /\
    s_sym s' = s_sym s /\ s_nrow s' = s_nrow s /\ s_ncol s' = s_ncol s /\
    s_bp s' = s_bp s /\ forall j, j < s_ncol s -> csc_column s' j = csc_column s j.
Proof.
  intros W. destruct (csr_from_csc_ok s W) as (r & E1 & Wr & A1 & A2 & A3 & _ & A4).
  destruct (csc_from_csr_ok r Wr) as (s' & E2 & Ws & B1 & B2 & B3 & _ & B4).
  destruct (csc_unique s' s Ws W) as [C1 C2]; try congruence.
  exists r, s'. splits; auto; try congruence. intros i Hi. apply C2. congruence.
Qed.

End P.
