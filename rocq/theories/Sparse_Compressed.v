(** Compressed matrices: well-formedness, densification, entries. *)
From Verif Require Import Base Dense_Model Dense_Proofs Sparse_Model Sparse_Spec Sparse_Lib Sparse_Dedup Sparse_CooProofs Sparse_Rows Sparse_CsrProofs Sparse_CscProofs.

Set Default Proof Using "Type".
Section P.
Variable T : Type.
Variable zero : T.
Variables add mul : T -> T -> T.
Implicit Types ts : list (nat * nat * T).

(** ** loops over compressed arrays *)

(** stored entries bucket by bucket: (bucket, (index, value)) *)
Definition comp_items (n : nat) (bp bi : list nat) (bx : list T) : list (nat * (nat * T)) :=
  flat_map (fun b => map (pair b) (seg (combine bi bx) (nth b bp 0) (nth (b + 1) bp 0))) (seq 0 n).

Definition pointers_ok (n : nat) (bp : list nat) (len : nat) : Prop :=
  length bp = n + 1 /\ (forall b, b < n -> nth b bp 0 <= nth (b + 1) bp 0) /\ nth n bp 0 <= len.

Lemma pointers_mono n bp len a b :
  pointers_ok n bp len -> a <= b -> b <= n -> nth a bp 0 <= nth b bp 0.
Proof.
  intros (_ & H & _). induction 1 as [|b Hab IH]; intros Hb; auto.
  specialize (H b ltac:(lia)). rewrite Nat.add_1_r in H. specialize (IH ltac:(lia)). lia.
Qed.

Lemma pointers_le n bp len b : pointers_ok n bp len -> b <= n -> nth b bp 0 <= len.
Proof.
  intros H Hb. assert (H1 := pointers_mono n bp len b n H Hb (Nat.le_refl _)).
  destruct H as (_ & _ & H). lia.
Qed.

Lemma comp_loop {S} n bp bi (bx : list T) (f : nat -> nat -> S -> res S)
   (body : nat * (nat * T) -> S -> res S) (s : S) :
  pointers_ok n bp (Nat.min (length bi) (length bx)) ->
  (forall b p t, b < n -> p < length bi -> p < length bx ->
     f b p t = body (b, (nth p bi 0, nth p bx zero)) t) ->
  for_range 0 n (fun b st =>
    p1 <- vget bp b ;;
    p2 <- vget bp (b + 1) ;;
    for_range p1 p2 (f b) st) s
  = for_each (comp_items n bp bi bx) body s.
Proof.
  intros HP Hf. assert (HP' := HP). destruct HP' as (HL & _ & _).
  unfold comp_items. apply for_range_flat. intros b t Hb.
  rewrite (vget_ok _ _ 0) by lia. cbn [bind]. rewrite (vget_ok _ _ 0) by lia. cbn [bind].
  assert (Hle := pointers_le n bp _ (b + 1) HP ltac:(lia)).
  rewrite (for_range_seg (combine bi bx) (fun a => body (b, a))).
  - now rewrite for_each_map.
  - rewrite combine_length. lia.
  - intros k t' Hk. rewrite Hf by lia.
    rewrite (vget_ok _ _ (0, zero)) by (rewrite combine_length; lia). cbn [bind].
    replace (nth k (combine bi bx) (0, zero)) with (nth k bi 0, nth k bx zero); [reflexivity|].
    assert (Hki : k < length bi) by lia. assert (Hkx : k < length bx) by lia. clear - Hki Hkx.
    revert bx k Hki Hkx; induction bi as [|a bi IH]; intros [|x bx] [|k] H1 H2; simpl in *; try lia; auto.
    apply IH; lia.
Qed.

Lemma wf_safe n m bp bi bx : compressed_wf (T:=T) n m bp bi bx -> compressed_safe n m bp bi bx.
Proof.
  intros (H1 & H2 & H3 & H4 & H5 & H6). unfold compressed_safe. splits; auto.
  intros b Hb. now apply H6.
Qed.

Lemma csc_wf_safe (s : csc T) : csc_wf s -> csc_safe s.
Proof. intros (_ & _ & H & W). split; auto. now apply wf_safe. Qed.

Lemma csr_wf_safe (s : csr T) : csr_wf s -> csr_safe s.
Proof. intros (_ & _ & H & W). split; auto. now apply wf_safe. Qed.

Lemma safe_pointers n m bp bi bx :
  compressed_safe (T:=T) n m bp bi bx -> pointers_ok n bp (Nat.min (length bi) (length bx)).
Proof. intros (H1 & H3 & H4 & H5 & _). repeat split; auto. lia. Qed.

Lemma wf_pointers n m bp bi bx :
  compressed_wf (T:=T) n m bp bi bx -> pointers_ok n bp (Nat.min (length bi) (length bx)).
Proof. intros H. eapply safe_pointers, wf_safe; eassumption. Qed.

Lemma comp_items_safe n m bp bi bx b i x :
  compressed_safe n m bp bi bx -> In (b, (i, x)) (comp_items n bp bi bx) -> b < n /\ i < m.
Proof.
  intros (H1 & H3 & H4 & H5 & H6) Hin. unfold comp_items in Hin.
  apply in_flat_map in Hin. destruct Hin as (b' & Hb & Hin). apply in_seq in Hb.
  apply in_map_iff in Hin. destruct Hin as (ix & E & Hin). inversion E; subst. split; [lia|].
  rewrite seg_combine in Hin. apply in_combine_l in Hin.
  assert (HF := H6 b ltac:(lia)). rewrite Forall_forall in HF. now apply HF.
Qed.

Lemma comp_items_in n m bp bi bx b i x :
  compressed_wf n m bp bi bx -> In (b, (i, x)) (comp_items n bp bi bx) -> b < n /\ i < m.
Proof. intros W. apply comp_items_safe. now apply wf_safe. Qed.

Definition csc_trip (a : nat * (nat * T)) : nat * nat * T := (fst (snd a), fst a, snd (snd a)).
Definition csr_trip (a : nat * (nat * T)) : nat * nat * T := (fst a, fst (snd a), snd (snd a)).

Lemma csc_triplets_items (s : csc T) :
  csc_triplets s = map csc_trip (comp_items (s_ncol s) (s_bp s) (s_bi s) (s_bx s)).
Proof.
  unfold csc_triplets, comp_items, csc_column. induction (seq 0 (s_ncol s)) as [|j l IH]; cbn [flat_map]; auto.
  rewrite map_app, IH. f_equal. rewrite map_map. apply map_ext. intros [i x]. reflexivity.
Qed.

Lemma csr_triplets_items (s : csr T) :
  csr_triplets s = map csr_trip (comp_items (r_nrow s) (r_bp s) (r_bj s) (r_bx s)).
Proof.
  unfold csr_triplets, comp_items, csr_row. induction (seq 0 (r_nrow s)) as [|j l IH]; cbn [flat_map]; auto.
  rewrite map_app, IH. f_equal. rewrite map_map. apply map_ext. intros [i x]. reflexivity.
Qed.

Lemma csc_trip_safe (s : csc T) : csc_safe s -> Forall (in_range (s_nrow s) (s_ncol s)) (csc_triplets s).
Proof.
  intros (_ & W). rewrite csc_triplets_items, Forall_map. apply Forall_forall.
  intros [j [i x]] Hin. apply (comp_items_safe _ _ _ _ _ _ _ _ W) in Hin.
  unfold in_range, row_of, col_of, csc_trip; cbn [fst snd]. destruct Hin; split; assumption.
Qed.

Lemma csr_trip_safe (s : csr T) : csr_safe s -> Forall (in_range (r_nrow s) (r_ncol s)) (csr_triplets s).
Proof.
  intros (_ & W). rewrite csr_triplets_items, Forall_map. apply Forall_forall.
  intros [j [i x]] Hin. apply (comp_items_safe _ _ _ _ _ _ _ _ W) in Hin.
  unfold in_range, row_of, col_of, csr_trip; cbn [fst snd]. destruct Hin; split; assumption.
Qed.

Lemma csc_trip_range (s : csc T) : csc_wf s -> Forall (in_range (s_nrow s) (s_ncol s)) (csc_triplets s).
Proof. intros W. now apply csc_trip_safe, csc_wf_safe. Qed.

Lemma csr_trip_range (s : csr T) : csr_wf s -> Forall (in_range (r_nrow s) (r_ncol s)) (csr_triplets s).
Proof. intros W. now apply csr_trip_safe, csr_wf_safe. Qed.

Lemma accum_dense_is nrow ncol s ts a :
  (s <> SymNo -> nrow = ncol) -> Forall (in_range nrow ncol) ts ->
  d_wf a -> d_nrow a = nrow -> d_ncol a = ncol ->
  exists a', for_each ts (mirror_body T add (triangular s)) (d_fill T a zero) = Ok a' /\
    dense_is T zero add a' nrow ncol (expand s ts).
Proof.
  intros Hsq HF W Hr Hc. rewrite mirror_expand.
  destruct (d_fill_spec T zero a zero W) as [Wf Vf].
  destruct (accum_dense T zero add nrow ncol (expand s ts) (d_fill T a zero))
    as (a' & E & W' & R' & C' & H'); auto.
  { apply expand_in_range with (n := nrow); auto. }
  exists a'. split; [exact E|]. unfold dense_is. splits; auto.
  - unfold d_wf in W'. congruence.
  - intros i j Hi Hj. rewrite (d_get_val T zero) by congruence. f_equal.
    rewrite H' by assumption. rewrite Vf by congruence. reflexivity.
Qed.

Lemma csc_to_dense_safe (s : csc T) a :
  csc_safe s -> d_wf a -> d_nrow a = s_nrow s -> d_ncol a = s_ncol s ->
  exists a', csc_to_dense T zero add s a = Ok a' /\
    dense_is T zero add a' (s_nrow s) (s_ncol s) (expand (s_sym s) (csc_triplets s)).
Proof.
  intros W Wa Hr Hc. unfold csc_to_dense. rewrite Hr, Hc, !Nat.eqb_refl. cbn [negb orb].
  assert (W' := W). destruct W' as (Hsq & Wc).
  rewrite (comp_loop (s_ncol s) (s_bp s) (s_bi s) (s_bx s) _
     (fun a => mirror_body T add (triangular (s_sym s)) (csc_trip a))).
  - rewrite <- for_each_map, <- csc_triplets_items.
    apply accum_dense_is; auto. now apply csc_trip_safe.
  - eapply safe_pointers; eassumption.
  - intros b p t Hb Hp1 Hp2. rewrite (vget_ok (s_bi s) _ 0), (vget_ok (s_bx s) _ zero) by lia. reflexivity.
Qed.

Lemma csr_to_dense_safe (s : csr T) a :
  csr_safe s -> d_wf a -> d_nrow a = r_nrow s -> d_ncol a = r_ncol s ->
  exists a', csr_to_dense T zero add s a = Ok a' /\
    dense_is T zero add a' (r_nrow s) (r_ncol s) (expand (r_sym s) (csr_triplets s)).
Proof.
  intros W Wa Hr Hc. unfold csr_to_dense. rewrite Hr, Hc, !Nat.eqb_refl. cbn [negb orb].
  assert (W' := W). destruct W' as (Hsq & Wc).
  rewrite (comp_loop (r_nrow s) (r_bp s) (r_bj s) (r_bx s) _
     (fun a => mirror_body T add (triangular (r_sym s)) (csr_trip a))).
  - rewrite <- for_each_map, <- csr_triplets_items.
    apply accum_dense_is; auto. now apply csr_trip_safe.
  - eapply safe_pointers; eassumption.
  - intros b p t Hb Hp1 Hp2. rewrite (vget_ok (r_bj s) _ 0), (vget_ok (r_bx s) _ zero) by lia. reflexivity.
Qed.

Lemma csc_to_dense_ok (s : csc T) a :
  csc_wf s -> d_wf a -> d_nrow a = s_nrow s -> d_ncol a = s_ncol s ->
  exists a', csc_to_dense T zero add s a = Ok a' /\
    dense_is T zero add a' (s_nrow s) (s_ncol s) (expand (s_sym s) (csc_triplets s)).
Proof. intros W. apply csc_to_dense_safe. now apply csc_wf_safe. Qed.

Lemma csr_to_dense_ok (s : csr T) a :
  csr_wf s -> d_wf a -> d_nrow a = r_nrow s -> d_ncol a = r_ncol s ->
  exists a', csr_to_dense T zero add s a = Ok a' /\
    dense_is T zero add a' (r_nrow s) (r_ncol s) (expand (r_sym s) (csr_triplets s)).
Proof. intros W. apply csr_to_dense_safe. now apply csr_wf_safe. Qed.

(** ** the converted matrix is well formed *)

Lemma increasing_app l1 l2 lo mid :
  increasing_from lo l1 -> Forall (fun a => a < mid) l1 -> increasing_from mid l2 -> lo <= mid ->
  increasing_from lo (l1 ++ l2).
Proof.
  revert lo; induction l1 as [|a l1 IH]; intros lo H1 HF H2 Hle; cbn [app increasing_from] in *.
  - destruct l2 as [|b l2]; cbn [increasing_from] in *; auto. destruct H2; split; auto; lia.
  - inversion HF; subst. destruct H1. split; [assumption|]. apply IH; auto; lia.
Qed.

Lemma flat_cells_increasing (f : nat -> list T) n lo :
  (forall i, length (f i) <= 1) ->
  increasing_from lo (map fst (flat_map (fun i => map (fun x => (i, x)) (f i)) (seq lo n))).
Proof.
  intros H1. revert lo; induction n as [|n IH]; intros lo; cbn [seq flat_map]; [exact I|].
  rewrite map_app. apply increasing_app with (mid := S lo); auto.
  - specialize (H1 lo). destruct (f lo) as [|x [|y l]]; simpl in *; auto; lia.
  - rewrite map_map. cbn [fst]. apply Forall_forall. intros a Ha. apply in_map_iff in Ha.
    destruct Ha as (x & <- & _). lia.
Qed.

Lemma flat_cells_lt (f : nat -> list T) n :
  Forall (fun i => i < n) (map fst (flat_map (fun i => map (fun x => (i, x)) (f i)) (seq 0 n))).
Proof.
  apply Forall_forall. intros i Hi. apply in_map_iff in Hi. destruct Hi as ([i' x] & <- & Hi).
  apply in_flat_map in Hi. destruct Hi as (k & Hk & Hi). apply in_seq in Hk.
  apply in_map_iff in Hi. destruct Hi as (y & E & _). inversion E; subst. simpl. lia.
Qed.

Lemma cell_length ts i j : length (cell T zero add ts i j) <= 1.
Proof. unfold cell. destruct (vals_at ts i j); simpl; lia. Qed.

Lemma seg_fst_combine {A B} (l1 : list A) (l2 : list B) p q :
  p <= q -> q <= length l1 -> q <= length l2 ->
  map fst (seg (combine l1 l2) p q) = seg l1 p q.
Proof.
  intros H0 H1 H2. rewrite seg_combine, map_fst_combine; auto.
  rewrite !seg_length by lia. lia.
Qed.

Lemma holds_pointers (n : nat) (bp : list nat) (len : nat -> nat) total :
  length bp = n + 1 -> nth n bp 0 <= total ->
  (forall j, j < n -> nth (j + 1) bp 0 = nth j bp 0 + len j) ->
  pointers_ok n bp total.
Proof. intros H1 H2 H3. repeat split; auto. intros b Hb. rewrite H3 by assumption. lia. Qed.

Lemma csc_holds_wf s sy nrow ncol ts :
  1 <= nrow -> 1 <= ncol -> (sy <> SymNo -> nrow = ncol) ->
  csc_holds T zero add s sy nrow ncol ts -> csc_wf s.
Proof.
  intros H1 H2 H3 (<- & <- & <- & L & Z0 & Li & Lx & H). unfold csc_wf. splits; auto.
  assert (HP : pointers_ok (s_ncol s) (s_bp s) (Nat.min (length (s_bi s)) (length (s_bx s)))).
  { eapply holds_pointers with (len := fun j => length (spec_column T zero add ts (s_nrow s) j)); auto; try lia.
    intros j Hj. now apply H. }
  unfold compressed_wf. splits; auto.
  - apply HP.
  - intros j Hj. destruct (H j Hj) as [H4 H5]. unfold csc_column in H5.
    assert (Hle := pointers_le _ _ _ (j + 1) HP ltac:(lia)).
    rewrite <- (seg_fst_combine (s_bi s) (s_bx s)) by lia.
    rewrite H5. unfold spec_column. split.
    + apply flat_cells_increasing. intros; apply cell_length.
    + apply flat_cells_lt.
Qed.

Lemma csr_holds_wf s sy nrow ncol ts :
  1 <= nrow -> 1 <= ncol -> (sy <> SymNo -> nrow = ncol) ->
  csr_holds T zero add s sy nrow ncol ts -> csr_wf s.
Proof.
  intros H1 H2 H3 (<- & <- & <- & L & Z0 & Li & Lx & H). unfold csr_wf. splits; auto.
  assert (HP : pointers_ok (r_nrow s) (r_bp s) (Nat.min (length (r_bj s)) (length (r_bx s)))).
  { eapply holds_pointers with (len := fun j => length (spec_row T zero add ts (r_ncol s) j)); auto; try lia.
    intros j Hj. now apply H. }
  unfold compressed_wf. splits; auto.
  - apply HP.
  - intros j Hj. destruct (H j Hj) as [H4 H5]. unfold csr_row in H5.
    assert (Hle := pointers_le _ _ _ (j + 1) HP ltac:(lia)).
    rewrite <- (seg_fst_combine (r_bj s) (r_bx s)) by lia.
    rewrite H5. unfold spec_row. split.
    + apply flat_cells_increasing. intros; apply cell_length.
    + apply flat_cells_lt.
Qed.

(** ** entries *)

Lemma vals_at_app ts ts' i j : vals_at (ts ++ ts') i j = vals_at ts i j ++ vals_at ts' i j.
Proof. unfold vals_at. now rewrite filter_app, map_app. Qed.

Lemma vals_at_flat {A} (f : A -> list (nat * nat * T)) l i j :
  vals_at (flat_map f l) i j = flat_map (fun a => vals_at (f a) i j) l.
Proof. induction l as [|a l IH]; cbn [flat_map]; auto. rewrite vals_at_app, IH. reflexivity. Qed.

Lemma flat_map_single {A} (f : nat -> list A) n k :
  k < n -> (forall b, b <> k -> f b = []) -> flat_map f (seq 0 n) = f k.
Proof.
  intros Hk Hf.
  assert (G : forall m lo, (lo <= k < lo + m -> flat_map f (seq lo m) = f k) /\
                           (k < lo \/ lo + m <= k -> flat_map f (seq lo m) = [])).
  { induction m as [|m IH]; intros lo; cbn [seq flat_map].
    - split; auto. lia.
    - destruct (IH (S lo)) as [I1 I2]. split; intros H.
      + destruct (Nat.eq_dec lo k) as [->|Hne].
        * rewrite I2 by lia. apply app_nil_r.
        * rewrite Hf by auto. apply I1. lia.
      + rewrite Hf by lia. apply I2. lia. }
  apply G. lia.
Qed.

Lemma vals_at_col (l : list (nat * T)) i j' j :
  vals_at (map (fun '(i, x) => (i, j', x)) l) i j = if j' =? j then kvals i l else [].
Proof.
  unfold vals_at, kvals. induction l as [|[i' x] l IH]; cbn [map filter].
  - now destruct (j' =? j).
  - change (at_pos i j (i', j', x)) with ((i' =? i) && (j' =? j)). cbn [fst].
    destruct (i' =? i), (j' =? j); cbn [andb map]; rewrite ?IH; reflexivity.
Qed.

Lemma vals_at_row (l : list (nat * T)) i i' j :
  vals_at (map (fun '(j, x) => (i', j, x)) l) i j = if i' =? i then kvals j l else [].
Proof.
  unfold vals_at, kvals. induction l as [|[j' x] l IH]; cbn [map filter].
  - now destruct (i' =? i).
  - change (at_pos i j (i', j', x)) with ((i' =? i) && (j' =? j)). cbn [fst].
    destruct (i' =? i), (j' =? j); cbn [andb map]; rewrite ?IH; reflexivity.
Qed.

Lemma vals_at_csc (s : csc T) i j :
  j < s_ncol s -> vals_at (csc_triplets s) i j = kvals i (csc_column s j).
Proof.
  intros Hj. unfold csc_triplets. rewrite vals_at_flat.
  rewrite (flat_map_single _ _ j Hj).
  - rewrite vals_at_col, Nat.eqb_refl. reflexivity.
  - intros b Hb. rewrite vals_at_col. destruct (Nat.eqb_spec b j); auto. lia.
Qed.

Lemma vals_at_csr (s : csr T) i j :
  i < r_nrow s -> vals_at (csr_triplets s) i j = kvals j (csr_row s i).
Proof.
  intros Hj. unfold csr_triplets. rewrite vals_at_flat.
  rewrite (flat_map_single _ _ i Hj).
  - rewrite vals_at_row, Nat.eqb_refl. reflexivity.
  - intros b Hb. rewrite vals_at_row. destruct (Nat.eqb_spec b i); auto. lia.
Qed.

Lemma kvals_flat {A} (f : A -> list (nat * T)) l j :
  kvals j (flat_map f l) = flat_map (fun a => kvals j (f a)) l.
Proof. induction l as [|a l IH]; cbn [flat_map]; auto. rewrite kvals_app, IH. reflexivity. Qed.

Lemma kvals_map_pair (l : list T) b j :
  kvals j (map (fun x => (b, x)) l) = if b =? j then l else [].
Proof.
  unfold kvals. induction l as [|x l IH]; cbn [map filter fst].
  - now destruct (b =? j).
  - destruct (b =? j); cbn [map snd]; rewrite ?IH; reflexivity.
Qed.

Lemma kvals_cells (f : nat -> list T) n j :
  j < n -> kvals j (flat_map (fun i => map (fun x => (i, x)) (f i)) (seq 0 n)) = f j.
Proof.
  intros Hj. rewrite kvals_flat, (flat_map_single _ _ j Hj).
  - now rewrite kvals_map_pair, Nat.eqb_refl.
  - intros b Hb. rewrite kvals_map_pair. destruct (Nat.eqb_spec b j); auto. lia.
Qed.

Lemma csc_holds_vals s sy nrow ncol ts i j :
  csc_holds T zero add s sy nrow ncol ts -> i < nrow -> j < ncol ->
  vals_at (csc_triplets s) i j = cell T zero add ts i j.
Proof.
  intros (H1 & H2 & H3 & H4 & H5 & H6 & H7 & H) Hi Hj. rewrite vals_at_csc by lia.
  destruct (H j Hj) as [_ ->]. unfold spec_column.
  now apply (kvals_cells (fun i => cell T zero add ts i j)).
Qed.

Lemma csr_holds_vals s sy nrow ncol ts i j :
  csr_holds T zero add s sy nrow ncol ts -> i < nrow -> j < ncol ->
  vals_at (csr_triplets s) i j = cell T zero add ts i j.
Proof.
  intros (H1 & H2 & H3 & H4 & H5 & H6 & H7 & H) Hi Hj. rewrite vals_at_csr by lia.
  destruct (H i Hi) as [_ ->]. unfold spec_row.
  now apply (kvals_cells (fun j => cell T zero add ts i j)).
Qed.

Lemma entry_cell ts i j :
  (forall x, add zero x = x) ->
  fold_left add (cell T zero add ts i j) zero = entry T zero add ts i j.
Proof.
  intros H0. unfold cell, entry, sum1. destruct (vals_at ts i j) as [|v vs]; cbn [fold_left]; auto.
  now rewrite !H0.
Qed.

(** triplets of the other triangle never occur, so expansion mirrors *)
Lemma vals_at_expand s ts i j :
  Forall (fun t => in_triangle s (row_of t) (col_of t) = true) ts ->
  vals_at (expand s ts) i j = if in_triangle s i j then vals_at ts i j else vals_at ts j i.
Proof.
  intros HF. unfold expand. rewrite vals_at_flat.
  induction HF as [|[[a b] x] ts Ha HF IH]; cbn [flat_map].
  - now destruct (in_triangle s i j).
  - rewrite IH. unfold row_of, col_of in Ha; cbn [fst snd] in Ha.
    assert (Hh : forall p q, vals_at ((a, b, x) :: ts) p q =
       (if (a =? p) && (b =? q) then [x] else []) ++ vals_at ts p q).
    { intros p q. unfold vals_at; cbn [filter].
      change (at_pos p q (a, b, x)) with ((a =? p) && (b =? q)).
      destruct ((a =? p) && (b =? q)); reflexivity. }
    assert (H1 : forall p q (y : T), vals_at [(p, q, y)] i j = if (p =? i) && (q =? j) then [y] else []).
    { intros p q y. unfold vals_at; cbn [filter].
      change (at_pos i j (p, q, y)) with ((p =? i) && (q =? j)).
      destruct ((p =? i) && (q =? j)); reflexivity. }
    assert (H2 : forall t1 t2 : nat * nat * T, vals_at [t1; t2] i j = vals_at [t1] i j ++ vals_at [t2] i j).
    { intros. apply (vals_at_app [t1] [t2]). }
    destruct s; cbn [triangular in_triangle andb] in *.
    1,2: rewrite H1, Hh; reflexivity.
    + destruct (Nat.eqb_spec a b) as [->|Hab]; cbn [negb]; rewrite ?H2, ?H1, !Hh.
      * apply Nat.leb_le in Ha.
        destruct (Nat.leb_spec j i), (Nat.eqb_spec b i), (Nat.eqb_spec b j); cbn [andb app]; auto; lia.
      * apply Nat.leb_le in Ha.
        destruct (Nat.leb_spec j i), (Nat.eqb_spec a i), (Nat.eqb_spec b j), (Nat.eqb_spec a j), (Nat.eqb_spec b i);
          cbn [andb app]; auto; lia.
    + destruct (Nat.eqb_spec a b) as [->|Hab]; cbn [negb]; rewrite ?H2, ?H1, !Hh.
      * apply Nat.leb_le in Ha.
        destruct (Nat.leb_spec i j), (Nat.eqb_spec b i), (Nat.eqb_spec b j); cbn [andb app]; auto; lia.
      * apply Nat.leb_le in Ha.
        destruct (Nat.leb_spec i j), (Nat.eqb_spec a i), (Nat.eqb_spec b j), (Nat.eqb_spec a j), (Nat.eqb_spec b i);
          cbn [andb app]; auto; lia.
Qed.

(** a triplet list with the same cells (occupied positions and sums) is in the triangle *)
Lemma vals_nil_triangle s ts i j :
  Forall (fun t => in_triangle s (row_of t) (col_of t) = true) ts ->
  in_triangle s i j = false -> vals_at ts i j = [].
Proof.
  intros HF Ht. unfold vals_at. induction HF as [|[[a b] x] ts Ha HF IH]; cbn [filter]; auto.
  change (at_pos i j (a, b, x)) with ((a =? i) && (b =? j)).
  unfold row_of, col_of in Ha; cbn [fst snd] in Ha.
  destruct (Nat.eqb_spec a i) as [->|], (Nat.eqb_spec b j) as [->|]; cbn [andb]; auto. congruence.
Qed.

Lemma triangle_from_vals s ts nrow ncol :
  Forall (in_range nrow ncol) ts ->
  (forall i j, i < nrow -> j < ncol -> in_triangle s i j = false -> vals_at ts i j = []) ->
  Forall (fun t => in_triangle s (row_of t) (col_of t) = true) ts.
Proof.
  intros HR H. apply Forall_forall. intros t Ht.
  destruct (in_triangle s (row_of t) (col_of t)) eqn:E; auto. exfalso.
  rewrite Forall_forall in HR. destruct (HR t Ht) as [H1 H2].
  specialize (H _ _ H1 H2 E). unfold vals_at in H.
  assert (Hin : In (val_of t) (map val_of (filter (at_pos (row_of t) (col_of t)) ts))).
  { apply in_map. apply filter_In. split; auto. unfold at_pos. now rewrite !Nat.eqb_refl. }
  rewrite H in Hin. destruct Hin.
Qed.

Lemma expand_entry_eq s ts ts' nrow ncol :
  (s <> SymNo -> nrow = ncol) -> (forall x, add zero x = x) ->
  Forall (fun t => in_triangle s (row_of t) (col_of t) = true) ts ->
  Forall (in_range nrow ncol) ts' ->
  (forall i j, i < nrow -> j < ncol -> vals_at ts' i j = cell T zero add ts i j) ->
  forall i j, i < nrow -> j < ncol ->
    entry T zero add (expand s ts') i j = entry T zero add (expand s ts) i j.
Proof.
  intros Hsq H0 HT HR HV i j Hi Hj.
  assert (HT' : Forall (fun t => in_triangle s (row_of t) (col_of t) = true) ts').
  { apply triangle_from_vals with (nrow := nrow) (ncol := ncol); auto.
    intros a b Ha Hb Hab. rewrite HV by assumption. unfold cell.
    now rewrite (vals_nil_triangle s ts a b HT Hab). }
  unfold entry. rewrite (vals_at_expand s ts') by assumption. rewrite (vals_at_expand s ts) by assumption.
  destruct (in_triangle s i j) eqn:E.
  - rewrite HV by assumption. now apply entry_cell.
  - assert (nrow = ncol) by (apply Hsq; intros ->; discriminate). subst ncol.
    rewrite HV by assumption. now apply entry_cell.
Qed.

Lemma dense_is_ext a nrow ncol ts ts' :
  (forall i j, i < nrow -> j < ncol -> entry T zero add ts i j = entry T zero add ts' i j) ->
  dense_is T zero add a nrow ncol ts -> dense_is T zero add a nrow ncol ts'.
Proof.
  intros H (A & B & C & D). unfold dense_is. splits; auto.
  intros i j Hi Hj. rewrite D by assumption. now rewrite H.
Qed.

Lemma coo_valid_triangle (c : coo T) :
  coo_valid c -> Forall (fun t => in_triangle (c_sym c) (row_of t) (col_of t) = true) (coo_triplets c).
Proof.
  intros (_ & _ & _ & _ & _ & _ & _ & _ & H). apply Forall_forall. intros t Ht. now apply H.
Qed.

Lemma csc_holds_dense s (c : coo T) a :
  (forall x, add zero x = x) -> coo_valid c ->
  csc_holds T zero add s (c_sym c) (c_nrow c) (c_ncol c) (coo_triplets c) ->
  d_wf a -> d_nrow a = c_nrow c -> d_ncol a = c_ncol c ->
  exists a', csc_to_dense T zero add s a = Ok a' /\
    dense_is T zero add a' (c_nrow c) (c_ncol c) (expand (c_sym c) (coo_triplets c)).
Proof.
  intros H0 V HH W Hr Hc.
  assert (V' := V). destruct V' as (V1 & V2 & _ & _ & _ & _ & _ & Vs & _).
  assert (Wf := csc_holds_wf _ _ _ _ _ V1 V2 Vs HH).
  assert (HH' := HH). destruct HH' as (E1 & E2 & E3 & _).
  destruct (csc_to_dense_ok s a Wf W) as (a' & E & D); try congruence.
  exists a'. split; [exact E|]. rewrite E1, E2, E3 in D.
  eapply dense_is_ext; [|exact D].
  eapply expand_entry_eq; eauto using coo_valid_triangle.
  - rewrite <- E2, <- E3. now apply csc_trip_range.
  - intros i j Hi Hj. now apply (csc_holds_vals _ _ _ _ _ i j HH).
Qed.

Lemma csr_holds_dense s (c : coo T) a :
  (forall x, add zero x = x) -> coo_valid c ->
  csr_holds T zero add s (c_sym c) (c_nrow c) (c_ncol c) (coo_triplets c) ->
  d_wf a -> d_nrow a = c_nrow c -> d_ncol a = c_ncol c ->
  exists a', csr_to_dense T zero add s a = Ok a' /\
    dense_is T zero add a' (c_nrow c) (c_ncol c) (expand (c_sym c) (coo_triplets c)).
Proof.
  intros H0 V HH W Hr Hc.
  assert (V' := V). destruct V' as (V1 & V2 & _ & _ & _ & _ & _ & Vs & _).
  assert (Wf := csr_holds_wf _ _ _ _ _ V1 V2 Vs HH).
  assert (HH' := HH). destruct HH' as (E1 & E2 & E3 & _).
  destruct (csr_to_dense_ok s a Wf W) as (a' & E & D); try congruence.
  exists a'. split; [exact E|]. rewrite E1, E2, E3 in D.
  eapply dense_is_ext; [|exact D].
  eapply expand_entry_eq; eauto using coo_valid_triangle.
  - rewrite <- E2, <- E3. now apply csr_trip_range.
  - intros i j Hi Hj. now apply (csr_holds_vals _ _ _ _ _ i j HH).
Qed.

End P.
Arguments comp_items {T}.
