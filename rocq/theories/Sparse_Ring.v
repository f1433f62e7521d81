(** The exact-order results of Sparse_Ops read as matrix algebra, when the numbers form a
    commutative ring. *)
From Coq Require Import Ring Ring_theory.
From Verif Require Import Base Dense_Model Dense_Proofs Sparse_Model Sparse_Spec Sparse_Lib Sparse_CooProofs Sparse_CsrProofs Sparse_Compressed Sparse_Convert Sparse_Ops.

Set Default Proof Using "Type".

Section R.
Variable T : Type.
Variables zero one : T.
Variables add mul sub : T -> T -> T.
Variable opp : T -> T.
Hypothesis RT : ring_theory zero one add mul sub opp (@eq T).

Implicit Types ts : list (nat * nat * T).

Add Ring TRing : RT.

Local Notation "x + y" := (add x y).
Local Notation "x * y" := (mul x y).

(** f 0 + f 1 + ... + f (n-1) *)
Fixpoint rsum (n : nat) (f : nat -> T) : T :=
  match n with
  | 0 => zero
  | S k => rsum k f + f k
  end.

Set Default Proof Using "RT".

Lemma rsum_ext n f g : (forall k, k < n -> f k = g k) -> rsum n f = rsum n g.
Proof.
  induction n as [|n IH]; intros H; cbn [rsum]; auto. rewrite H by lia. f_equal. apply IH. auto.
Qed.

Lemma rsum_add n f g : rsum n (fun k => f k + g k) = rsum n f + rsum n g.
Proof. induction n as [|n IH]; cbn [rsum]; [ring|]. rewrite IH. ring. Qed.

Lemma rsum_scale n a f : rsum n (fun k => a * f k) = a * rsum n f.
Proof. induction n as [|n IH]; cbn [rsum]; [ring|]. rewrite IH. ring. Qed.

Lemma rsum_zero n f : (forall k, k < n -> f k = zero) -> rsum n f = zero.
Proof. induction n as [|n IH]; intros H; cbn [rsum]; auto. rewrite IH, H by auto. ring. Qed.

Lemma rsum_single n f b : b < n -> (forall k, k < n -> k <> b -> f k = zero) -> rsum n f = f b.
Proof.
  induction n as [|n IH]; intros Hb H; [lia|]. cbn [rsum].
  destruct (Nat.eq_dec b n) as [->|Hn].
  - rewrite rsum_zero; [ring|]. intros k Hk. apply H; lia.
  - rewrite IH, (H n) by (auto; lia). ring.
Qed.

Lemma fold_add l a : fold_left add l a = a + fold_left add l zero.
Proof.
  revert a; induction l as [|x l IH]; intros a; cbn [fold_left]; [ring|].
  rewrite IH, (IH (zero + x)). ring.
Qed.

Lemma entry_cons (t : nat * nat * T) ts i j :
  entry T zero add (t :: ts) i j =
  (if at_pos i j t then val_of t else zero) + entry T zero add ts i j.
Proof.
  unfold entry, vals_at. cbn [filter]. destruct (at_pos i j t); cbn [map fold_left].
  - rewrite fold_add. ring.
  - ring.
Qed.

Lemma entry_app ts ts' i j :
  entry T zero add (ts ++ ts') i j = entry T zero add ts i j + entry T zero add ts' i j.
Proof.
  induction ts as [|t ts IH]; cbn [app].
  - unfold entry at 2; cbn. ring.
  - rewrite !entry_cons, IH. ring.
Qed.

Lemma entry_scale alpha ts i j :
  entry T zero add (map (scale T mul alpha) ts) i j = alpha * entry T zero add ts i j.
Proof.
  induction ts as [|t ts IH]; cbn [map].
  - unfold entry; cbn. ring.
  - rewrite !entry_cons, IH. change (at_pos i j (scale T mul alpha t)) with (at_pos i j t).
    change (val_of (scale T mul alpha t)) with (alpha * val_of t).
    destruct (at_pos i j t); ring.
Qed.

Lemma entry_swap ts i j : entry T zero add (map (swap T) ts) i j = entry T zero add ts j i.
Proof.
  induction ts as [|t ts IH]; cbn [map]; auto.
  rewrite !entry_cons, IH. replace (at_pos i j (swap T t)) with (at_pos j i t); [reflexivity|].
  unfold at_pos, swap, row_of, col_of; cbn [fst snd]. apply andb_comm.
Qed.

Lemma expand_scale s alpha ts : expand s (map (scale T mul alpha) ts) = map (scale T mul alpha) (expand s ts).
Proof using Type.
  induction ts as [|[[i j] x] ts IH]; cbn [map expand flat_map]; auto.
  unfold expand in *. cbn [flat_map]. rewrite map_app, <- IH. f_equal.
  unfold scale at 1, row_of, col_of, val_of; cbn [fst snd].
  destruct (triangular s && negb (i =? j)); reflexivity.
Qed.

Lemma entry_expand_swap s ts i j :
  entry T zero add (expand s (map (swap T) ts)) i j = entry T zero add (expand s ts) j i.
Proof.
  induction ts as [|[[a b] x] ts IH]; cbn [map expand flat_map]; auto.
  unfold expand in *. cbn [flat_map]. rewrite !entry_app, IH. f_equal.
  unfold swap at 1, row_of, col_of, val_of; cbn [fst snd].
  rewrite (Nat.eqb_sym b a).
  destruct (triangular s && negb (a =? b)); rewrite !entry_cons; unfold entry; cbn [vals_at filter map fold_left];
    unfold at_pos, row_of, col_of, val_of; cbn [fst snd];
    rewrite ?(andb_comm (b =? i)), ?(andb_comm (a =? i)); ring.
Qed.

(** the accumulated terms are alpha times row i of the matrix times u *)
Lemma mv_terms_dense alpha u ts i ncol a0 :
  Forall (fun t => col_of t < ncol) ts ->
  fold_left add (mv_terms T zero mul alpha u ts i) a0 =
  a0 + alpha * rsum ncol (fun j => entry T zero add ts i j * nth j u zero).
Proof.
  intros HF. rewrite fold_add. f_equal. induction HF as [|[[a b] x] ts Hb HF IH].
  - unfold mv_terms; cbn [filter map fold_left]. rewrite rsum_zero; [ring|].
    intros k _. unfold entry; cbn. ring.
  - unfold col_of in Hb; cbn [fst snd] in Hb.
    rewrite (rsum_ext ncol _ (fun j => (if at_pos i j (a, b, x) then x else zero) * nth j u zero +
                                       entry T zero add ts i j * nth j u zero)).
    2:{ intros k _. rewrite entry_cons. change (val_of (a, b, x)) with x. ring. }
    rewrite rsum_add. unfold mv_terms. cbn [filter]. change (row_of (a, b, x)) with a.
    destruct (Nat.eqb_spec a i) as [->|Ha].
    + cbn [map fold_left]. rewrite fold_add. fold (mv_terms T zero mul alpha u ts i). rewrite IH.
      rewrite (rsum_single ncol (fun j => (if at_pos i j (i, b, x) then x else zero) * nth j u zero) b); auto.
      * unfold at_pos, mv_term, row_of, col_of, val_of; cbn [fst snd]. rewrite !Nat.eqb_refl. cbn [andb]. ring.
      * intros k Hk Hkb. unfold at_pos, row_of, col_of; cbn [fst snd].
        destruct (Nat.eqb_spec b k); [congruence|]. rewrite andb_false_r. ring.
    + fold (mv_terms T zero mul alpha u ts i). rewrite IH.
      rewrite (rsum_zero ncol (fun j => (if at_pos i j (a, b, x) then x else zero) * nth j u zero)).
      * ring.
      * intros k Hk. unfold at_pos, row_of, col_of; cbn [fst snd].
        destruct (Nat.eqb_spec a i); [congruence|]. cbn [andb]. ring.
Qed.

Lemma range_cols ts nrow ncol : Forall (in_range nrow ncol) ts -> Forall (fun t => col_of t < ncol) ts.
Proof using Type. intros H. eapply Forall_impl; [|exact H]. intros t [_ Ht]. exact Ht. Qed.

(** the number at (i,j) of a dense matrix (out-of-range positions read as zero) *)
Definition dnum (a : dmat T) (i j : nat) : T := match d_get a i j with Ok x => x | _ => zero end.

Lemma dnum_is a nrow ncol ts i j :
  dense_is T zero add a nrow ncol ts -> i < nrow -> j < ncol -> dnum a i j = entry T zero add ts i j.
Proof using Type. intros (_ & _ & _ & H) Hi Hj. unfold dnum. now rewrite H. Qed.

Lemma coo_as_dense_is (c : coo T) :
  coo_valid c -> exists a, coo_as_dense T zero add c = Ok a /\
    dense_is T zero add a (c_nrow c) (c_ncol c) (expand (c_sym c) (coo_triplets c)).
Proof using Type.
  intros V. destruct (coo_to_dense_ok T zero add c (d_new T zero (c_nrow c) (c_ncol c)) V) as (a & E & H);
    try reflexivity.
  { apply d_new_wf. }
  exists a. split; auto. unfold coo_as_dense. rewrite E. reflexivity.
Qed.

Lemma csc_as_dense_is (s : csc T) :
  csc_safe s -> exists a, csc_as_dense T zero add s = Ok a /\
    dense_is T zero add a (s_nrow s) (s_ncol s) (expand (s_sym s) (csc_triplets s)).
Proof using Type.
  intros V. destruct (csc_to_dense_safe T zero add s (d_new T zero (s_nrow s) (s_ncol s)) V) as (a & E & H);
    try reflexivity.
  { apply d_new_wf. }
  exists a. split; auto. unfold csc_as_dense. rewrite E. reflexivity.
Qed.

Lemma csr_as_dense_is (s : csr T) :
  csr_safe s -> exists a, csr_as_dense T zero add s = Ok a /\
    dense_is T zero add a (r_nrow s) (r_ncol s) (expand (r_sym s) (csr_triplets s)).
Proof using Type.
  intros V. destruct (csr_to_dense_safe T zero add s (d_new T zero (r_nrow s) (r_ncol s)) V) as (a & E & H);
    try reflexivity.
  { apply d_new_wf. }
  exists a. split; auto. unfold csr_as_dense. rewrite E. reflexivity.
Qed.

Lemma coo_mat_vec_mul_dense (c : coo T) v alpha u :
  coo_valid c -> c_ncol c <= length u -> c_nrow c <= length v ->
  exists a v', coo_as_dense T zero add c = Ok a /\
    coo_mat_vec_mul T zero add mul c v alpha u = Ok v' /\ length v' = length v /\
    forall i, i < c_nrow c ->
      nth i v' zero = alpha * rsum (c_ncol c) (fun j => dnum a i j * nth j u zero).
Proof.
  intros V Hu Hv. destruct (coo_as_dense_is c V) as (a & Ea & Ha).
  destruct (coo_mat_vec_mul_ok T zero add mul c v alpha u V Hu Hv) as (v' & E & L & H).
  exists a, v'. splits; auto. intros i Hi. rewrite H.
  rewrite mv_terms_dense with (ncol := c_ncol c).
  - rewrite (rsum_ext _ _ (fun j => dnum a i j * nth j u zero)); [ring|].
    intros j Hj. erewrite dnum_is by eassumption. reflexivity.
  - apply range_cols with (nrow := c_nrow c). apply expand_range; [apply V|]. now apply coo_valid_in_range.
Qed.

Lemma coo_mat_vec_mul_update_dense (c : coo T) v alpha u :
  coo_valid c -> c_ncol c <= length u -> c_nrow c <= length v ->
  exists a v', coo_as_dense T zero add c = Ok a /\
    coo_mat_vec_mul_update T add mul c v alpha u = Ok v' /\ length v' = length v /\
    forall i, i < c_nrow c ->
      nth i v' zero = nth i v zero + alpha * rsum (c_ncol c) (fun j => dnum a i j * nth j u zero).
Proof.
  intros V Hu Hv. destruct (coo_as_dense_is c V) as (a & Ea & Ha).
  destruct (coo_mat_vec_mul_update_ok T zero add mul c v alpha u V Hu Hv) as (v' & E & L & H).
  exists a, v'. splits; auto. intros i Hi. rewrite H.
  rewrite mv_terms_dense with (ncol := c_ncol c).
  - rewrite (rsum_ext _ _ (fun j => dnum a i j * nth j u zero)); [ring|].
    intros j Hj. erewrite dnum_is by eassumption. reflexivity.
  - apply range_cols with (nrow := c_nrow c). apply expand_range; [apply V|]. now apply coo_valid_in_range.
Qed.

Lemma coo_mat_t_vec_mul_dense (c : coo T) v alpha u :
  coo_valid c -> c_nrow c <= length u -> c_ncol c <= length v ->
  exists a v', coo_as_dense T zero add c = Ok a /\
    coo_mat_t_vec_mul T zero add mul c v alpha u = Ok v' /\ length v' = length v /\
    forall j, j < c_ncol c ->
      nth j v' zero = alpha * rsum (c_nrow c) (fun i => dnum a i j * nth i u zero).
Proof.
  intros V Hu Hv. destruct (coo_as_dense_is c V) as (a & Ea & Ha).
  destruct (coo_mat_t_vec_mul_ok T zero add mul c v alpha u V Hu Hv) as (v' & E & L & H).
  exists a, v'. splits; auto. intros i Hi. rewrite H.
  rewrite mv_terms_dense with (ncol := c_nrow c).
  - rewrite (rsum_ext _ _ (fun j => dnum a j i * nth j u zero)); [ring|].
    intros j Hj. rewrite entry_expand_swap. erewrite dnum_is by eassumption. reflexivity.
  - apply range_cols with (nrow := c_ncol c). apply expand_range.
    + intros Hs. symmetry. now apply V.
    + rewrite Forall_map. eapply Forall_impl; [|apply (coo_valid_in_range T c V)].
      intros t [Hta Htb]. split; assumption.
Qed.

Lemma csc_mat_vec_mul_dense (s : csc T) v alpha u :
  csc_safe s -> length u = s_ncol s -> length v = s_nrow s ->
  exists a v', csc_as_dense T zero add s = Ok a /\
    csc_mat_vec_mul T zero add mul s v alpha u = Ok v' /\ length v' = length v /\
    forall i, i < s_nrow s ->
      nth i v' zero = alpha * rsum (s_ncol s) (fun j => dnum a i j * nth j u zero).
Proof.
  intros V Hu Hv. destruct (csc_as_dense_is s V) as (a & Ea & Ha).
  destruct (csc_mat_vec_mul_ok T zero add mul s v alpha u V Hu Hv) as (v' & E & L & H).
  exists a, v'. splits; auto. intros i Hi. rewrite H.
  rewrite mv_terms_dense with (ncol := s_ncol s).
  - rewrite (rsum_ext _ _ (fun j => dnum a i j * nth j u zero)); [ring|].
    intros j Hj. erewrite dnum_is by eassumption. reflexivity.
  - apply range_cols with (nrow := s_nrow s). apply expand_range; [apply V|]. now apply csc_trip_safe.
Qed.

Lemma csr_mat_vec_mul_dense (s : csr T) v alpha u :
  csr_safe s -> length u = r_ncol s -> length v = r_nrow s ->
  exists a v', csr_as_dense T zero add s = Ok a /\
    csr_mat_vec_mul T zero add mul s v alpha u = Ok v' /\ length v' = length v /\
    forall i, i < r_nrow s ->
      nth i v' zero = alpha * rsum (r_ncol s) (fun j => dnum a i j * nth j u zero).
Proof.
  intros V Hu Hv. destruct (csr_as_dense_is s V) as (a & Ea & Ha).
  destruct (csr_mat_vec_mul_ok T zero add mul s v alpha u V Hu Hv) as (v' & E & L & H).
  exists a, v'. splits; auto. intros i Hi. rewrite H.
  rewrite mv_terms_dense with (ncol := r_ncol s).
  - rewrite (rsum_ext _ _ (fun j => dnum a i j * nth j u zero)); [ring|].
    intros j Hj. erewrite dnum_is by eassumption. reflexivity.
  - apply range_cols with (nrow := r_nrow s). apply expand_range; [apply V|]. now apply csr_trip_safe.
Qed.

(** dimension mismatch: an error, nothing else (v is not touched: `res` carries no new v) *)
Lemma coo_mat_vec_mul_fails (c : coo T) v alpha u :
  (length u < c_ncol c \/ length v < c_nrow c) ->
  exists e, coo_mat_vec_mul T zero add mul c v alpha u = Err e.
Proof using Type.
  intros H. unfold coo_mat_vec_mul. destruct (Nat.ltb_spec (length u) (c_ncol c)); eauto.
  destruct (Nat.ltb_spec (length v) (c_nrow c)); eauto. lia.
Qed.

Lemma coo_assign_dense (a o : coo T) alpha :
  coo_valid a -> coo_valid o ->
  c_nrow o = c_nrow a -> c_ncol o = c_ncol a -> c_sym o = c_sym a -> c_nnz o <= c_max a ->
  exists a' da do, coo_assign T mul a alpha o = (a', Ok tt) /\ coo_valid a' /\
    coo_as_dense T zero add a' = Ok da /\ coo_as_dense T zero add o = Ok do /\
    c_nrow a' = c_nrow a /\ c_ncol a' = c_ncol a /\ c_sym a' = c_sym a /\
    forall i j, i < c_nrow a -> j < c_ncol a -> dnum da i j = alpha * dnum do i j.
Proof.
  intros Va Vo H1 H2 H3 H4. assert (H := coo_assign_ok T mul a o alpha Va Vo).
  destruct (coo_assign T mul a alpha o) as [a' r].
  destruct H as (V' & B1 & B2 & B3 & B4 & [(-> & _ & _ & _ & _ & Ht)|(e & _ & [(N & _)|N])]).
  - destruct (coo_as_dense_is a' V') as (da & Ea & Ha). destruct (coo_as_dense_is o Vo) as (do & Eo & Ho).
    exists a', da, do. splits; auto. intros i j Hi Hj.
    rewrite (dnum_is da _ _ _ i j Ha), (dnum_is do _ _ _ i j Ho) by congruence.
    rewrite Ht, B4, <- H3, expand_scale. apply entry_scale.
  - destruct N as [|[|]]; congruence.
  - lia.
Qed.

Lemma entry_out ts nrow ncol i j :
  Forall (in_range nrow ncol) ts -> (nrow <= i \/ ncol <= j) -> entry T zero add ts i j = zero.
Proof using Type.
  intros HF Ho. unfold entry. replace (vals_at ts i j) with (@nil T); [reflexivity|].
  symmetry. unfold vals_at. induction HF as [|[[a b] x] ts [Ha Hb] HF IH]; auto.
  cbn [filter]. unfold row_of, col_of in *; cbn [fst snd] in *.
  replace (at_pos i j (a, b, x)) with false; auto. symmetry.
  unfold at_pos, row_of, col_of; cbn [fst snd].
  destruct (Nat.eqb_spec a i), (Nat.eqb_spec b j); auto; lia.
Qed.

(** the entry of B at (i,j), zero outside B *)
Definition dnum0 (d : dmat T) (i j : nat) : T :=
  if (i <? d_nrow d) && (j <? d_ncol d) then dnum d i j else zero.

Lemma dnum0_is d nrow ncol ts i j :
  dense_is T zero add d nrow ncol ts -> Forall (in_range nrow ncol) ts ->
  dnum0 d i j = entry T zero add ts i j.
Proof using Type.
  intros H HF. unfold dnum0. destruct H as (Hr & Hc & L & H). rewrite Hr, Hc.
  destruct (Nat.ltb_spec i nrow), (Nat.ltb_spec j ncol); cbn [andb];
    try (symmetry; eapply entry_out; [exact HF|lia]).
  unfold dnum. now rewrite H.
Qed.

Lemma coo_add_dense (a o : coo T) alpha :
  coo_valid a -> coo_valid o ->
  c_nrow o <= c_nrow a -> c_ncol o <= c_ncol a -> c_sym o = c_sym a -> c_nnz a + c_nnz o <= c_max a ->
  exists a' d0 d1 do, coo_add T mul a alpha o = (a', Ok tt) /\ coo_valid a' /\
    coo_as_dense T zero add a = Ok d0 /\ coo_as_dense T zero add a' = Ok d1 /\
    coo_as_dense T zero add o = Ok do /\
    c_nrow a' = c_nrow a /\ c_ncol a' = c_ncol a /\ c_sym a' = c_sym a /\
    forall i j, i < c_nrow a -> j < c_ncol a ->
      dnum d1 i j = dnum d0 i j + alpha * dnum0 do i j.
Proof.
  intros Va Vo H1 H2 H3 H4. assert (H := coo_add_ok T mul a o alpha Va Vo).
  destruct (coo_add T mul a alpha o) as [a' r].
  destruct H as (V' & B1 & B2 & B3 & B4 & [(-> & _ & _ & _ & _ & Ht)|(e & _ & [(N & _)|N])]).
  - destruct (coo_as_dense_is a Va) as (d0 & E0 & H0).
    destruct (coo_as_dense_is a' V') as (d1 & E1 & Hd1). destruct (coo_as_dense_is o Vo) as (do & Eo & Ho).
    exists a', d0, d1, do. splits; auto. intros i j Hi Hj.
    rewrite (dnum_is d0 _ _ _ i j H0), (dnum_is d1 _ _ _ i j Hd1) by congruence.
    rewrite (dnum0_is do _ _ _ i j Ho).
    + rewrite Ht, B4, expand_app, entry_app, <- H3, expand_scale, entry_scale. reflexivity.
    + apply expand_range; [apply Vo|]. now apply coo_valid_in_range.
  - destruct N as [|[|]]; [lia|lia|congruence].
  - lia.
Qed.

Lemma coo_lagrange_dense (a b : coo T) :
  coo_valid a -> coo_valid b -> c_sym b = SymNo ->
  c_ncol b + c_nrow b <= c_nrow a -> c_ncol b + c_nrow b <= c_ncol a ->
  c_nnz a + (if triangular (c_sym a) then c_nnz b else c_nnz b + c_nnz b)%nat <= c_max a ->
  exists a' d0 d1 db, coo_put_lagrange_block T a b = (a', Ok tt) /\ coo_valid a' /\
    coo_as_dense T zero add a = Ok d0 /\ coo_as_dense T zero add a' = Ok d1 /\
    coo_as_dense T zero add b = Ok db /\
    c_nrow a' = c_nrow a /\ c_ncol a' = c_ncol a /\ c_sym a' = c_sym a /\
    forall i j, i < c_nrow a -> j < c_ncol a ->
      dnum d1 i j = dnum d0 i j +
        (if (c_ncol b <=? i) && (j <? c_ncol b) then dnum0 db (i - c_ncol b)%nat j
         else if (c_ncol b <=? j) && (i <? c_ncol b) then dnum0 db (j - c_ncol b)%nat i
         else zero).
Proof.
  intros Va Vb Hs H1 H2 H4. assert (H := coo_lagrange_ok T a b Va Vb).
  destruct (coo_put_lagrange_block T a b) as [a' r].
  destruct H as (V' & B1 & B2 & B3 & B4 & [(-> & _ & _ & _ & _ & Ht)|(e & _ & [(N & _)|N])]).
  - destruct (coo_as_dense_is a Va) as (d0 & E0 & H0).
    destruct (coo_as_dense_is a' V') as (d1 & E1 & Hd1). destruct (coo_as_dense_is b Vb) as (db & Eb & Hb).
    exists a', d0, d1, db. splits; auto. intros i j Hi Hj.
    rewrite (dnum_is d0 _ _ _ i j H0), (dnum_is d1 _ _ _ i j Hd1) by congruence.
    assert (HFb : Forall (in_range (c_nrow b) (c_ncol b)) (expand (c_sym b) (coo_triplets b))).
    { apply expand_range; [apply Vb|]. now apply coo_valid_in_range. }
    rewrite !(dnum0_is db _ _ _ _ _ Hb HFb).
    assert (Eexp : expand (c_sym b) (coo_triplets b) = coo_triplets b).
    { rewrite Hs. unfold expand; cbn [triangular andb]. clear.
      induction (coo_triplets b) as [|[[p q] x] l IH]; cbn [flat_map app]; congruence. }
    rewrite Eexp. unfold entry at 1. rewrite B4, Ht, fold_left_app, fold_add.
    fold (entry T zero add (expand (c_sym a) (coo_triplets a)) i j). f_equal.
    unfold lagrange_vals.
    destruct ((c_ncol b <=? i) && (j <? c_ncol b)); [reflexivity|].
    destruct ((c_ncol b <=? j) && (i <? c_ncol b)); reflexivity.
  - destruct N as [|[|]]; [congruence|lia|lia].
  - unfold lagrange_need in N. lia.
Qed.

(** ** conversion between formats preserves the dense matrix *)

Lemma vals_at_in ts t : In t ts -> In (val_of t) (vals_at ts (row_of t) (col_of t)).
Proof using Type.
  intros H. unfold vals_at. apply in_map, filter_In. split; auto.
  unfold at_pos. now rewrite !Nat.eqb_refl.
Qed.

Lemma triangle_transfer s ts ts' :
  (forall i j, vals_at ts' i j = vals_at ts i j) ->
  Forall (fun t => in_triangle s (row_of t) (col_of t) = true) ts ->
  Forall (fun t => in_triangle s (row_of t) (col_of t) = true) ts'.
Proof using Type.
  intros H HF. apply Forall_forall. intros t Ht. apply vals_at_in in Ht. rewrite H in Ht.
  unfold vals_at in Ht. apply in_map_iff in Ht. destruct Ht as (t0 & _ & Ht0).
  apply filter_In in Ht0. destruct Ht0 as [Hin Hp]. rewrite Forall_forall in HF.
  specialize (HF _ Hin). cbn beta in HF. unfold at_pos in Hp.
  apply andb_true_iff in Hp. destruct Hp as [P1 P2]. apply Nat.eqb_eq in P1, P2. congruence.
Qed.

Lemma expand_vals_transfer s ts ts' i j :
  (forall i j, vals_at ts' i j = vals_at ts i j) ->
  Forall (fun t => in_triangle s (row_of t) (col_of t) = true) ts ->
  vals_at (expand s ts') i j = vals_at (expand s ts) i j.
Proof using Type.
  intros H HF. rewrite !vals_at_expand; auto.
  - now destruct (in_triangle s i j).
  - eapply triangle_transfer; eassumption.
Qed.

Lemma vals_entry (ts ts' : list (nat * nat * T)) i j :
  vals_at ts i j = vals_at ts' i j -> entry T zero add ts i j = entry T zero add ts' i j.
Proof using Type. intros H. unfold entry. now rewrite H. Qed.

End R.
