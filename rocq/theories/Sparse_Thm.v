(** Property theorems C01-C09 (sparse matrices). *)
From Coq Require Import Ring_theory ZArithRing.
From Verif Require Import Base Dense_Model Dense_Proofs Sparse_Model Sparse_Spec Sparse_Lib Sparse_CooProofs
  Sparse_CsrProofs Sparse_CscProofs Sparse_Compressed Sparse_Convert Sparse_Ops Sparse_Ring.

(* ------------------------------------------------------------------ *)
(** * C01: a COO matrix behaves as a bounded triplet list *)

(** From a fresh matrix, every history of put/reset calls: each call reports success exactly
    when the abstract bounded list accepts it (and never panics), the stored triplets are the
    abstract list, and the parameters never change. *)
Theorem C01_coo_history :
  forall (T : Type) (zero : T) nrow ncol max s c os,
  coo_new T zero nrow ncol max s = Ok c ->
  let '(c', rs) := coo_run c os in
  let '(l', bs) := spec_run nrow ncol max s [] os in
  coo_triplets c' = l' /\ map outcome_flag rs = map Some bs /\
  c_nrow c' = nrow /\ c_ncol c' = ncol /\ c_max c' = max /\ c_sym c' = s /\ coo_valid c'.
Proof.
  intros T zero nrow ncol max s c os H.
  destruct (coo_new_valid T zero nrow ncol max s c H) as (V & <- & <- & <- & <- & Ht).
  assert (HR := coo_run_refines T os c V). rewrite Ht in HR.
  destruct (coo_run c os) as [c' rs], (spec_run _ _ _ _ [] os) as [l' bs].
  destruct HR as (H1 & H2 & H3 & H4 & H5 & H6 & H7). splits; auto.
Qed.

(** `new` succeeds exactly on positive sizes (and square when symmetric) *)
Theorem C01_coo_new_ok :
  forall (T : Type) (zero : T) nrow ncol max s,
  (exists c, coo_new T zero nrow ncol max s = Ok c) <->
  1 <= nrow /\ 1 <= ncol /\ 1 <= max /\ (s <> SymNo -> nrow = ncol).
Proof.
  intros T zero nrow ncol max s. unfold coo_new. split.
  - intros [c H]. destruct (Nat.ltb_spec nrow 1); [discriminate|].
    destruct (Nat.ltb_spec ncol 1); [discriminate|]. destruct (Nat.ltb_spec max 1); [discriminate|].
    splits; auto; try lia. intros Hs. destruct (sym_eqb_spec s SymNo); [congruence|].
    destruct (Nat.eqb_spec nrow ncol); auto. discriminate.
  - intros (H1 & H2 & H3 & H4). destruct (Nat.ltb_spec nrow 1); [lia|].
    destruct (Nat.ltb_spec ncol 1); [lia|]. destruct (Nat.ltb_spec max 1); [lia|].
    destruct (sym_eqb_spec s SymNo); cbn [negb andb]; eauto.
    destruct (Nat.eqb_spec nrow ncol); cbn [negb]; eauto. exfalso. auto.
Qed.

Example C01_ex :
  exists c, coo_new Z 0%Z 2 2 2 SymYesLower = Ok c /\
  map outcome_flag (snd (coo_run c [OpPut 1 0 5%Z; OpPut 0 1 6%Z; OpPut 1 1 7%Z; OpPut 0 0 8%Z; OpReset; OpPut 0 0 9%Z]))
    = [Some true; Some false; Some true; Some false; Some true; Some true] /\
  coo_triplets (fst (coo_run c [OpPut 1 0 5%Z; OpPut 0 1 6%Z; OpPut 1 1 7%Z])) = [(1, 0, 5%Z); (1, 1, 7%Z)].
Proof. eexists. split; [reflexivity|]. split; reflexivity. Qed.

(* ------------------------------------------------------------------ *)
(** * C02: densification *)

Theorem C02_coo_as_dense :
  forall (T : Type) (zero : T) (add : T -> T -> T) (c : coo T),
  coo_valid c ->
  exists a, coo_as_dense T zero add c = Ok a /\
    d_nrow a = c_nrow c /\ d_ncol a = c_ncol c /\
    forall i j, i < c_nrow c -> j < c_ncol c ->
      d_get a i j = Ok (entry T zero add (expand (c_sym c) (coo_triplets c)) i j).
Proof.
  intros T zero add c V. destruct (coo_as_dense_is T zero add c V) as (a & E & H1 & H2 & H3 & H4).
  exists a. splits; auto.
Qed.

(** writing into an existing matrix of the right size overwrites whatever it held *)
Theorem C02_coo_to_dense :
  forall (T : Type) (zero : T) (add : T -> T -> T) (c : coo T) (a : dmat T),
  coo_valid c -> d_wf a -> d_nrow a = c_nrow c -> d_ncol a = c_ncol c ->
  exists a', coo_to_dense T zero add c a = Ok a' /\
    d_nrow a' = c_nrow c /\ d_ncol a' = c_ncol c /\
    forall i j, i < c_nrow c -> j < c_ncol c ->
      d_get a' i j = Ok (entry T zero add (expand (c_sym c) (coo_triplets c)) i j).
Proof.
  intros T zero add c a V W H1 H2. destruct (coo_to_dense_ok T zero add c a V H1 H2 W) as (a' & E & B1 & B2 & B3 & B4).
  exists a'. splits; auto.
Qed.

Example C02_ex :
  let c := fst (coo_run (match coo_new Z 0%Z 2 2 3 SymYesLower with Ok c => c | _ => mkCoo SymNo 0 0 0 0 [] [] [] end)
                 [OpPut 1 0 5%Z; OpPut 1 0 6%Z; OpPut 1 1 7%Z]) in
  coo_valid c /\
  coo_as_dense Z 0%Z Z.add c = Ok (mkD 2 2 [0; 11; 11; 7]%Z).
Proof.
  cbv zeta. split; [|reflexivity].
  assert (H := C01_coo_history Z 0%Z 2 2 3 SymYesLower _ [OpPut 1 0 5%Z; OpPut 1 0 6%Z; OpPut 1 1 7%Z] eq_refl).
  cbn in H. apply H.
Qed.

(* ------------------------------------------------------------------ *)
(** * C03, C04: COO to CSC / CSR *)

(** no algebraic law: the exact content of each column, duplicates merged in a definite order *)
Theorem C03_csc_from_coo :
  forall (T : Type) (zero : T) (add : T -> T -> T) (c : coo T),
  coo_valid c -> 1 <= c_nnz c ->
  exists s, csc_from_coo T zero add c = Ok s /\ csc_wf s /\
    s_sym s = c_sym c /\ s_nrow s = c_nrow c /\ s_ncol s = c_ncol c /\
    forall j, j < c_ncol c ->
      csc_column s j = spec_column T zero add (coo_triplets c) (c_nrow c) j /\
      nth (j + 1) (s_bp s) 0 - nth j (s_bp s) 0 = length (csc_column s j).
Proof.
  intros T zero add c V Hn. destruct (csc_from_coo_ok T zero add c V Hn) as (s & E & R & L & H).
  exists s. split; auto. assert (V' := V). destruct V' as (V1 & V2 & _ & _ & _ & _ & _ & Vs & _).
  split; [exact (csc_holds_wf T zero add _ _ _ _ _ V1 V2 Vs H)|].
  destruct H as (H1 & H2 & H3 & _ & _ & _ & _ & H). splits; auto.
  intros j Hj. destruct (H j Hj) as [A B]. split; auto. rewrite B. lia.
Qed.

Theorem C04_csr_from_coo :
  forall (T : Type) (zero : T) (add : T -> T -> T) (c : coo T),
  coo_valid c -> 1 <= c_nnz c ->
  exists s, csr_from_coo T zero add c = Ok s /\ csr_wf s /\
    r_sym s = c_sym c /\ r_nrow s = c_nrow c /\ r_ncol s = c_ncol c /\
    forall i, i < c_nrow c ->
      csr_row s i = spec_row T zero add (coo_triplets c) (c_ncol c) i /\
      nth (i + 1) (r_bp s) 0 - nth i (r_bp s) 0 = length (csr_row s i).
Proof.
  intros T zero add c V Hn. destruct (csr_from_coo_ok T zero add c V Hn) as (s & E & R & L & H).
  exists s. split; auto. assert (V' := V). destruct V' as (V1 & V2 & _ & _ & _ & _ & _ & Vs & _).
  split; [exact (csr_holds_wf T zero add _ _ _ _ _ V1 V2 Vs H)|].
  destruct H as (H1 & H2 & H3 & _ & _ & _ & _ & H). splits; auto.
  intros j Hj. destruct (H j Hj) as [A B]. split; auto. rewrite B. lia.
Qed.

Lemma dense_is_unique T zero add (a b : dmat T) nrow ncol ts :
  dense_is T zero add a nrow ncol ts -> dense_is T zero add b nrow ncol ts -> a = b.
Proof.
  intros (A1 & A2 & A3 & A4) (B1 & B2 & B3 & B4). destruct a as [ra ca da], b as [rb cb db].
  cbn [d_nrow d_ncol d_data] in *. subst. f_equal. apply nth_ext_d with (d := zero); [congruence|].
  intros k Hk. rewrite A3 in Hk. destruct (Nat.eq_dec nrow 0) as [->|Hc]; [lia|].
  assert (Hd := Nat.div_mod k nrow Hc). assert (Hm := Nat.mod_upper_bound k nrow Hc).
  assert (Hq : k / nrow < ncol) by (apply Nat.div_lt_upper_bound; lia).
  specialize (A4 (k mod nrow) (k / nrow) Hm Hq). specialize (B4 (k mod nrow) (k / nrow) Hm Hq).
  rewrite <- B4 in A4. clear B4.
  rewrite !(d_get_val T zero) in A4; cbn [d_nrow d_ncol d_data]; auto.
  unfold dval in A4. cbn [d_nrow d_ncol d_data] in A4. inversion A4 as [A5].
  replace (k mod nrow + k / nrow * nrow) with k in A5 by lia. exact A5.
Qed.

(** the CSC (CSR) matrix and the COO matrix densify to the same dense matrix; the only law
    used is 0 + x = x *)
Theorem C03_csc_same_dense :
  forall (T : Type) (zero : T) (add : T -> T -> T) (c : coo T),
  (forall x, add zero x = x) -> coo_valid c -> 1 <= c_nnz c ->
  exists s a, csc_from_coo T zero add c = Ok s /\
    csc_as_dense T zero add s = Ok a /\ coo_as_dense T zero add c = Ok a.
Proof.
  intros T zero add c H0 V Hn. destruct (csc_from_coo_ok T zero add c V Hn) as (s & E & R & L & H).
  destruct (csc_holds_dense T zero add s c (d_new T zero (c_nrow c) (c_ncol c)) H0 V H) as (a & Ea & Ha);
    try reflexivity; [apply d_new_wf|].
  destruct (coo_as_dense_is T zero add c V) as (b & Eb & Hb).
  assert (a = b) by (eapply dense_is_unique; eassumption). subst b.
  exists s, a. splits; auto. unfold csc_as_dense. destruct H as (_ & -> & -> & _). rewrite Ea. reflexivity.
Qed.

Theorem C04_csr_same_dense :
  forall (T : Type) (zero : T) (add : T -> T -> T) (c : coo T),
  (forall x, add zero x = x) -> coo_valid c -> 1 <= c_nnz c ->
  exists s a, csr_from_coo T zero add c = Ok s /\
    csr_as_dense T zero add s = Ok a /\ coo_as_dense T zero add c = Ok a.
Proof.
  intros T zero add c H0 V Hn. destruct (csr_from_coo_ok T zero add c V Hn) as (s & E & R & L & H).
  destruct (csr_holds_dense T zero add s c (d_new T zero (c_nrow c) (c_ncol c)) H0 V H) as (a & Ea & Ha);
    try reflexivity; [apply d_new_wf|].
  destruct (coo_as_dense_is T zero add c V) as (b & Eb & Hb).
  assert (a = b) by (eapply dense_is_unique; eassumption). subst b.
  exists s, a. splits; auto. unfold csr_as_dense. destruct H as (_ & -> & -> & _). rewrite Ea. reflexivity.
Qed.

(** a concrete valid matrix with duplicates, used as a witness below *)
Definition ex_coo : coo Z := mkCoo SymNo 3 2 4 5 [2; 0; 2; 1; 0] [1; 0; 1; 0; 0] [1; 2; 3; 4; 99]%Z.

Lemma ex_coo_valid : coo_valid ex_coo.
Proof.
  unfold coo_valid; cbn [ex_coo c_nrow c_ncol c_max c_nnz c_ii c_jj c_vv c_sym length].
  splits; try lia; try reflexivity; try congruence.
  intros t Ht. cbn in Ht.
  destruct Ht as [<-|[<-|[<-|[<-|[]]]]]; cbn; splits; auto; lia.
Qed.

Example C03_ex : coo_valid ex_coo /\ 1 <= c_nnz ex_coo /\
  (exists s, csc_from_coo Z 0%Z Z.add ex_coo = Ok s /\ s_bp s = [0; 2; 3] /\
     csc_column s 0 = [(0, 2%Z); (1, 4%Z)] /\ csc_column s 1 = [(2, 4%Z)]) /\
  (exists s, csr_from_coo Z 0%Z Z.add ex_coo = Ok s /\ r_bp s = [0; 1; 2; 3]).
Proof.
  split; [exact ex_coo_valid|]. split; [cbn; lia|].
  split; eexists; (split; [reflexivity|]); repeat split; reflexivity.
Qed.

(* ------------------------------------------------------------------ *)
(** * C05: reusing a compressed matrix *)

Theorem C05_csc_update_history :
  forall (T : Type) (zero : T) (add : T -> T -> T) (c0 : coo T) s0 cs c,
  coo_valid c0 -> csc_from_coo T zero add c0 = Ok s0 -> Forall coo_valid cs -> coo_valid c ->
  c_sym c = c_sym c0 -> c_nrow c = c_nrow c0 -> c_ncol c = c_ncol c0 -> c_nnz c = c_nnz c0 ->
  exists s' f, csc_update_from_coo T zero add (csc_updates T zero add s0 cs) c = Ok s' /\
    csc_from_coo T zero add c = Ok f /\
    s_sym s' = s_sym f /\ s_nrow s' = s_nrow f /\ s_ncol s' = s_ncol f /\
    s_bp s' = s_bp f /\ forall j, j < c_ncol c -> csc_column s' j = csc_column f j.
Proof. exact csc_history. Qed.

Theorem C05_csr_update_history :
  forall (T : Type) (zero : T) (add : T -> T -> T) (c0 : coo T) s0 cs c,
  coo_valid c0 -> csr_from_coo T zero add c0 = Ok s0 -> Forall coo_valid cs -> coo_valid c ->
  c_sym c = c_sym c0 -> c_nrow c = c_nrow c0 -> c_ncol c = c_ncol c0 -> c_nnz c = c_nnz c0 ->
  exists s' f, csr_update_from_coo T zero add (csr_updates T zero add s0 cs) c = Ok s' /\
    csr_from_coo T zero add c = Ok f /\
    r_sym s' = r_sym f /\ r_nrow s' = r_nrow f /\ r_ncol s' = r_ncol f /\
    r_bp s' = r_bp f /\ forall i, i < c_nrow c -> csr_row s' i = csr_row f i.
Proof. exact csr_history. Qed.

(** an update is refused exactly on a mismatch, and then nothing changes (the model returns
    no new state); it never panics *)
Theorem C05_csc_update_refused :
  forall (T : Type) (zero : T) (add : T -> T -> T) (c0 : coo T) s0 cs c,
  coo_valid c0 -> csc_from_coo T zero add c0 = Ok s0 -> Forall coo_valid cs -> coo_valid c ->
  ~ (c_sym c = c_sym c0 /\ c_nrow c = c_nrow c0 /\ c_ncol c = c_ncol c0 /\ c_nnz c = c_nnz c0) ->
  exists e, csc_update_from_coo T zero add (csc_updates T zero add s0 cs) c = Err e.
Proof.
  intros T zero add c0 s0 cs c V0 E0 HF V HN.
  assert (Hn : 1 <= c_nnz c0).
  { unfold csc_from_coo in E0. destruct (Nat.ltb_spec (c_nnz c0) 1); [discriminate|lia]. }
  destruct (csc_from_coo_ok T zero add c0 V0 Hn) as (s0' & E0' & R0 & L0 & HH0).
  assert (s0' = s0) by congruence. subst s0'.
  destruct (csc_updates_inv T zero add cs s0 R0 HF) as (I1 & I2 & I3 & I4 & I5).
  destruct HH0 as (A1 & A2 & A3 & _).
  destruct (csc_update_cases T zero add (csc_updates T zero add s0 cs) c V I1) as [((C1 & C2 & C3 & C4) & _)|(_ & HE)]; auto.
  exfalso. apply HN. splits; congruence.
Qed.

Theorem C05_csr_update_refused :
  forall (T : Type) (zero : T) (add : T -> T -> T) (c0 : coo T) s0 cs c,
  coo_valid c0 -> csr_from_coo T zero add c0 = Ok s0 -> Forall coo_valid cs -> coo_valid c ->
  ~ (c_sym c = c_sym c0 /\ c_nrow c = c_nrow c0 /\ c_ncol c = c_ncol c0 /\ c_nnz c = c_nnz c0) ->
  exists e, csr_update_from_coo T zero add (csr_updates T zero add s0 cs) c = Err e.
Proof.
  intros T zero add c0 s0 cs c V0 E0 HF V HN.
  assert (Hn : 1 <= c_nnz c0).
  { unfold csr_from_coo in E0. destruct (Nat.ltb_spec (c_nnz c0) 1); [discriminate|lia]. }
  destruct (csr_from_coo_ok T zero add c0 V0 Hn) as (s0' & E0' & R0 & L0 & HH0).
  assert (s0' = s0) by congruence. subst s0'.
  destruct (csr_updates_inv T zero add cs s0 R0 HF) as (I1 & I2 & I3 & I4 & I5).
  destruct HH0 as (A1 & A2 & A3 & _).
  destruct (csr_update_cases T zero add (csr_updates T zero add s0 cs) c V I1) as [((C1 & C2 & C3 & C4) & _)|(_ & HE)]; auto.
  exfalso. apply HN. splits; congruence.
Qed.

Example C05_ex : exists s0, csc_from_coo Z 0%Z Z.add ex_coo = Ok s0 /\
  exists s1, csc_update_from_coo Z 0%Z Z.add s0
    (mkCoo SymNo 3 2 4 4 [0; 1; 2; 0] [0; 0; 0; 1] [7; 8; 9; 10]%Z) = Ok s1 /\
  s_bp s1 = [0; 3; 4] /\ csc_column s1 1 = [(0, 10%Z)].
Proof. eexists. split; [reflexivity|]. eexists. split; [reflexivity|]. split; reflexivity. Qed.

(* ------------------------------------------------------------------ *)
(** * C06: CSC <-> CSR *)

Theorem C06_csc_from_csr :
  forall (T : Type) (zero : T) (r : csr T),
  csr_wf r ->
  exists s, csc_from_csr T zero r = Ok s /\ csc_wf s /\
    s_sym s = r_sym r /\ s_nrow s = r_nrow r /\ s_ncol s = r_ncol r /\
    length (csc_triplets s) = length (csr_triplets r) /\
    (forall i j, vals_at (csc_triplets s) i j = vals_at (csr_triplets r) i j).
Proof. exact csc_from_csr_ok. Qed.

Theorem C06_csr_from_csc :
  forall (T : Type) (zero : T) (s : csc T),
  csc_wf s ->
  exists r, csr_from_csc T zero s = Ok r /\ csr_wf r /\
    r_sym r = s_sym s /\ r_nrow r = s_nrow s /\ r_ncol r = s_ncol s /\
    length (csr_triplets r) = length (csc_triplets s) /\
    (forall i j, vals_at (csr_triplets r) i j = vals_at (csc_triplets s) i j).
Proof. exact csr_from_csc_ok. Qed.

(** same dense matrix; with one-triangle storage the stored entries must lie in that triangle
    (`new` does not check it) *)
Theorem C06_csc_from_csr_dense :
  forall (T : Type) (zero : T) (add : T -> T -> T) (r : csr T),
  csr_wf r -> Forall (fun t => in_triangle (r_sym r) (row_of t) (col_of t) = true) (csr_triplets r) ->
  exists s a, csc_from_csr T zero r = Ok s /\
    csc_as_dense T zero add s = Ok a /\ csr_as_dense T zero add r = Ok a.
Proof.
  intros T zero add r W HF. destruct (csc_from_csr_ok T zero r W) as (s & E & Ws & A1 & A2 & A3 & A4 & A5).
  destruct (csc_as_dense_is T zero add s (csc_wf_safe T s Ws)) as (a & Ea & Ha).
  destruct (csr_as_dense_is T zero add r (csr_wf_safe T r W)) as (b & Eb & Hb).
  assert (a = b).
  { eapply dense_is_unique; [|exact Hb]. rewrite A1, A2, A3 in Ha. eapply dense_is_ext; [|exact Ha].
    intros i j _ _. apply vals_entry. now apply expand_vals_transfer. }
  subst b. exists s, a. splits; auto.
Qed.

Theorem C06_csr_from_csc_dense :
  forall (T : Type) (zero : T) (add : T -> T -> T) (s : csc T),
  csc_wf s -> Forall (fun t => in_triangle (s_sym s) (row_of t) (col_of t) = true) (csc_triplets s) ->
  exists r a, csr_from_csc T zero s = Ok r /\
    csr_as_dense T zero add r = Ok a /\ csc_as_dense T zero add s = Ok a.
Proof.
  intros T zero add s W HF. destruct (csr_from_csc_ok T zero s W) as (r & E & Wr & A1 & A2 & A3 & A4 & A5).
  destruct (csr_as_dense_is T zero add r (csr_wf_safe T r Wr)) as (a & Ea & Ha).
  destruct (csc_as_dense_is T zero add s (csc_wf_safe T s W)) as (b & Eb & Hb).
  assert (a = b).
  { eapply dense_is_unique; [|exact Hb]. rewrite A1, A2, A3 in Ha. eapply dense_is_ext; [|exact Ha].
    intros i j _ _. apply vals_entry. now apply expand_vals_transfer. }
  subst b. exists r, a. splits; auto.
Qed.

Theorem C06_csr_roundtrip :
  forall (T : Type) (zero : T) (r : csr T),
  csr_wf r ->
  exists s r', csc_from_csr T zero r = Ok s /\ csr_from_csc T zero s = Ok r' /\
    r_sym r' = r_sym r /\ r_nrow r' = r_nrow r /\ r_ncol r' = r_ncol r /\
    r_bp r' = r_bp r /\ forall i, i < r_nrow r -> csr_row r' i = csr_row r i.
Proof. exact csr_roundtrip. Qed.

Theorem C06_csc_roundtrip :
  forall (T : Type) (zero : T) (s : csc T),
  csc_wf s ->
  exists r s', csr_from_csc T zero s = Ok r /\ csc_from_csr T zero r = Ok s' /\
    s_sym s' = s_sym s /\ s_nrow s' = s_nrow s /\ s_ncol s' = s_ncol s /\
    s_bp s' = s_bp s /\ forall j, j < s_ncol s -> csc_column s' j = csc_column s j.
Proof. exact csc_roundtrip. Qed.

Definition ex_csr : csr Z := mkCsr SymNo 2 3 [0; 2; 3] [0; 2; 1] [5; 6; 7]%Z [] [] [] [].

Example C06_ex : csr_wf ex_csr /\
  (exists s, csc_from_csr Z 0%Z ex_csr = Ok s /\ s_bp s = [0; 1; 2; 3] /\ s_bi s = [0; 1; 0] /\ s_bx s = [5; 7; 6]%Z) /\
  Forall (fun t => in_triangle (r_sym ex_csr) (row_of t) (col_of t) = true) (csr_triplets ex_csr).
Proof.
  splits.
  - unfold csr_wf, compressed_wf; cbn [ex_csr r_nrow r_ncol r_sym r_bp r_bj r_bx]. splits; try lia; try congruence;
      try reflexivity; try (cbn; lia).
    + intros [|[|b]] Hb; cbn; lia.
    + intros [|[|b]] Hb; try lia; cbn; (splits; [lia..|]); repeat constructor; lia.
  - eexists. split; [reflexivity|]. splits; reflexivity.
  - repeat constructor.
Qed.

(* ------------------------------------------------------------------ *)
(** * C07: matrix-vector products *)

(** exact-order form, any arithmetic: component i is the left-to-right sum of
    (alpha * a) * u[j] over the stored (and mirrored) triplets of row i *)
Theorem C07_coo_mat_vec_mul_order :
  forall (T : Type) (zero : T) (add mul : T -> T -> T) (c : coo T) v alpha u,
  coo_valid c -> c_ncol c <= length u -> c_nrow c <= length v ->
  exists v', coo_mat_vec_mul T zero add mul c v alpha u = Ok v' /\ length v' = length v /\
    forall i, nth i v' zero =
      fold_left add
        (map (fun t => mul (mul alpha (val_of t)) (nth (col_of t) u zero))
           (filter (fun t => row_of t =? i) (expand (c_sym c) (coo_triplets c)))) zero.
Proof. exact coo_mat_vec_mul_ok. Qed.

Theorem C07_coo_mat_vec_mul :
  forall (T : Type) (zero one : T) (add mul sub : T -> T -> T) (opp : T -> T),
  ring_theory zero one add mul sub opp (@eq T) ->
  forall (c : coo T) v alpha u,
  coo_valid c -> c_ncol c <= length u -> c_nrow c <= length v ->
  exists a v', coo_as_dense T zero add c = Ok a /\
    coo_mat_vec_mul T zero add mul c v alpha u = Ok v' /\ length v' = length v /\
    forall i, i < c_nrow c ->
      nth i v' zero = mul alpha (rsum T zero add (c_ncol c) (fun j => mul (dnum T zero a i j) (nth j u zero))).
Proof. exact coo_mat_vec_mul_dense. Qed.

Theorem C07_coo_mat_vec_mul_update :
  forall (T : Type) (zero one : T) (add mul sub : T -> T -> T) (opp : T -> T),
  ring_theory zero one add mul sub opp (@eq T) ->
  forall (c : coo T) v alpha u,
  coo_valid c -> c_ncol c <= length u -> c_nrow c <= length v ->
  exists a v', coo_as_dense T zero add c = Ok a /\
    coo_mat_vec_mul_update T add mul c v alpha u = Ok v' /\ length v' = length v /\
    forall i, i < c_nrow c ->
      nth i v' zero = add (nth i v zero)
        (mul alpha (rsum T zero add (c_ncol c) (fun j => mul (dnum T zero a i j) (nth j u zero)))).
Proof. exact coo_mat_vec_mul_update_dense. Qed.

Theorem C07_coo_mat_t_vec_mul :
  forall (T : Type) (zero one : T) (add mul sub : T -> T -> T) (opp : T -> T),
  ring_theory zero one add mul sub opp (@eq T) ->
  forall (c : coo T) v alpha u,
  coo_valid c -> c_nrow c <= length u -> c_ncol c <= length v ->
  exists a v', coo_as_dense T zero add c = Ok a /\
    coo_mat_t_vec_mul T zero add mul c v alpha u = Ok v' /\ length v' = length v /\
    forall j, j < c_ncol c ->
      nth j v' zero = mul alpha (rsum T zero add (c_nrow c) (fun i => mul (dnum T zero a i j) (nth i u zero))).
Proof. exact coo_mat_t_vec_mul_dense. Qed.

Theorem C07_csc_mat_vec_mul :
  forall (T : Type) (zero one : T) (add mul sub : T -> T -> T) (opp : T -> T),
  ring_theory zero one add mul sub opp (@eq T) ->
  forall (s : csc T) v alpha u,
  csc_safe s -> length u = s_ncol s -> length v = s_nrow s ->
  exists a v', csc_as_dense T zero add s = Ok a /\
    csc_mat_vec_mul T zero add mul s v alpha u = Ok v' /\ length v' = length v /\
    forall i, i < s_nrow s ->
      nth i v' zero = mul alpha (rsum T zero add (s_ncol s) (fun j => mul (dnum T zero a i j) (nth j u zero))).
Proof. exact csc_mat_vec_mul_dense. Qed.

Theorem C07_csr_mat_vec_mul :
  forall (T : Type) (zero one : T) (add mul sub : T -> T -> T) (opp : T -> T),
  ring_theory zero one add mul sub opp (@eq T) ->
  forall (s : csr T) v alpha u,
  csr_safe s -> length u = r_ncol s -> length v = r_nrow s ->
  exists a v', csr_as_dense T zero add s = Ok a /\
    csr_mat_vec_mul T zero add mul s v alpha u = Ok v' /\ length v' = length v /\
    forall i, i < r_nrow s ->
      nth i v' zero = mul alpha (rsum T zero add (r_ncol s) (fun j => mul (dnum T zero a i j) (nth j u zero))).
Proof. exact csr_mat_vec_mul_dense. Qed.

(** a dimension mismatch is an error (never a panic), for every format *)
Theorem C07_mismatch :
  forall (T : Type) (zero : T) (add mul : T -> T -> T) alpha u v,
  (forall c : coo T, length u < c_ncol c \/ length v < c_nrow c ->
     (exists e, coo_mat_vec_mul T zero add mul c v alpha u = Err e) /\
     (exists e, coo_mat_vec_mul_update T add mul c v alpha u = Err e)) /\
  (forall c : coo T, length u < c_nrow c \/ length v < c_ncol c ->
     exists e, coo_mat_t_vec_mul T zero add mul c v alpha u = Err e) /\
  (forall s : csc T, length u <> s_ncol s \/ length v <> s_nrow s ->
     exists e, csc_mat_vec_mul T zero add mul s v alpha u = Err e) /\
  (forall s : csr T, length u <> r_ncol s \/ length v <> r_nrow s ->
     exists e, csr_mat_vec_mul T zero add mul s v alpha u = Err e).
Proof.
  intros T zero add mul alpha u v. splits.
  - intros c H. unfold coo_mat_vec_mul, coo_mat_vec_mul_update.
    destruct (Nat.ltb_spec (length u) (c_ncol c)); [split; eauto|].
    destruct (Nat.ltb_spec (length v) (c_nrow c)); [split; eauto|lia].
  - intros c H. unfold coo_mat_t_vec_mul.
    destruct (Nat.ltb_spec (length u) (c_nrow c)); eauto.
    destruct (Nat.ltb_spec (length v) (c_ncol c)); eauto. lia.
  - intros s H. unfold csc_mat_vec_mul.
    destruct (Nat.eqb_spec (length u) (s_ncol s)); cbn [negb]; eauto.
    destruct (Nat.eqb_spec (length v) (s_nrow s)); cbn [negb]; eauto. lia.
  - intros s H. unfold csr_mat_vec_mul.
    destruct (Nat.eqb_spec (length u) (r_ncol s)); cbn [negb]; eauto.
    destruct (Nat.eqb_spec (length v) (r_nrow s)); cbn [negb]; eauto. lia.
Qed.

(** the integers are an instance of the ring hypothesis *)
Lemma Z_ring : ring_theory 0%Z 1%Z Z.add Z.mul Z.sub Z.opp (@eq Z).
Proof. constructor; intros; lia || (try ring). Qed.

Example C07_ex : coo_valid ex_coo /\
  coo_mat_vec_mul Z 0%Z Z.add Z.mul ex_coo [9; 9; 9]%Z 2%Z [10; 100]%Z = Ok [40; 80; 800]%Z /\
  coo_mat_t_vec_mul Z 0%Z Z.add Z.mul ex_coo [9; 9]%Z 1%Z [1; 10; 100]%Z = Ok [42; 400]%Z.
Proof. split; [exact ex_coo_valid|]. split; reflexivity. Qed.

(* ------------------------------------------------------------------ *)
(** * C08: assign, add, Lagrange block *)

Theorem C08_assign :
  forall (T : Type) (zero one : T) (add mul sub : T -> T -> T) (opp : T -> T),
  ring_theory zero one add mul sub opp (@eq T) ->
  forall (a o : coo T) alpha,
  coo_valid a -> coo_valid o ->
  c_nrow o = c_nrow a -> c_ncol o = c_ncol a -> c_sym o = c_sym a -> c_nnz o <= c_max a ->
  exists a' da do, coo_assign T mul a alpha o = (a', Ok tt) /\ coo_valid a' /\
    coo_as_dense T zero add a' = Ok da /\ coo_as_dense T zero add o = Ok do /\
    c_nrow a' = c_nrow a /\ c_ncol a' = c_ncol a /\ c_sym a' = c_sym a /\
    forall i j, i < c_nrow a -> j < c_ncol a -> dnum T zero da i j = mul alpha (dnum T zero do i j).
Proof. exact coo_assign_dense. Qed.

Theorem C08_add :
  forall (T : Type) (zero one : T) (add mul sub : T -> T -> T) (opp : T -> T),
  ring_theory zero one add mul sub opp (@eq T) ->
  forall (a o : coo T) alpha,
  coo_valid a -> coo_valid o ->
  c_nrow o <= c_nrow a -> c_ncol o <= c_ncol a -> c_sym o = c_sym a -> c_nnz a + c_nnz o <= c_max a ->
  exists a' d0 d1 do, coo_add T mul a alpha o = (a', Ok tt) /\ coo_valid a' /\
    coo_as_dense T zero add a = Ok d0 /\ coo_as_dense T zero add a' = Ok d1 /\
    coo_as_dense T zero add o = Ok do /\
    c_nrow a' = c_nrow a /\ c_ncol a' = c_ncol a /\ c_sym a' = c_sym a /\
    forall i j, i < c_nrow a -> j < c_ncol a ->
      dnum T zero d1 i j = add (dnum T zero d0 i j) (mul alpha (dnum0 T zero do i j)).
Proof. exact coo_add_dense. Qed.

Theorem C08_lagrange :
  forall (T : Type) (zero one : T) (add mul sub : T -> T -> T) (opp : T -> T),
  ring_theory zero one add mul sub opp (@eq T) ->
  forall (a b : coo T),
  coo_valid a -> coo_valid b -> c_sym b = SymNo ->
  c_ncol b + c_nrow b <= c_nrow a -> c_ncol b + c_nrow b <= c_ncol a ->
  c_nnz a + (if triangular (c_sym a) then c_nnz b else c_nnz b + c_nnz b) <= c_max a ->
  exists a' d0 d1 db, coo_put_lagrange_block T a b = (a', Ok tt) /\ coo_valid a' /\
    coo_as_dense T zero add a = Ok d0 /\ coo_as_dense T zero add a' = Ok d1 /\
    coo_as_dense T zero add b = Ok db /\
    c_nrow a' = c_nrow a /\ c_ncol a' = c_ncol a /\ c_sym a' = c_sym a /\
    forall i j, i < c_nrow a -> j < c_ncol a ->
      dnum T zero d1 i j = add (dnum T zero d0 i j)
        (if (c_ncol b <=? i) && (j <? c_ncol b) then dnum0 T zero db (i - c_ncol b) j
         else if (c_ncol b <=? j) && (i <? c_ncol b) then dnum0 T zero db (j - c_ncol b) i
         else zero).
Proof. exact coo_lagrange_dense. Qed.

(** no law, all outcomes: the triplets appended, and success exactly under the listed conditions *)
Theorem C08_assign_cases :
  forall (T : Type) (mul : T -> T -> T) (a o : coo T) alpha,
  coo_valid a -> coo_valid o ->
  let '(a', r) := coo_assign T mul a alpha o in
  coo_valid a' /\ c_nrow a' = c_nrow a /\ c_ncol a' = c_ncol a /\ c_max a' = c_max a /\ c_sym a' = c_sym a /\
  ((r = Ok tt /\ c_nrow o = c_nrow a /\ c_ncol o = c_ncol a /\ c_sym o = c_sym a /\ c_nnz o <= c_max a /\
    coo_triplets a' = map (fun t => (row_of t, col_of t, mul alpha (val_of t))) (coo_triplets o)) \/
   (exists e, r = Err e /\
    ((c_nrow o <> c_nrow a \/ c_ncol o <> c_ncol a \/ c_sym o <> c_sym a) /\ a' = a \/
     c_max a < c_nnz o))).
Proof. exact coo_assign_ok. Qed.

Theorem C08_add_cases :
  forall (T : Type) (mul : T -> T -> T) (a o : coo T) alpha,
  coo_valid a -> coo_valid o ->
  let '(a', r) := coo_add T mul a alpha o in
  coo_valid a' /\ c_nrow a' = c_nrow a /\ c_ncol a' = c_ncol a /\ c_max a' = c_max a /\ c_sym a' = c_sym a /\
  ((r = Ok tt /\ c_nrow o <= c_nrow a /\ c_ncol o <= c_ncol a /\ c_sym o = c_sym a /\
    c_nnz a + c_nnz o <= c_max a /\
    coo_triplets a' = coo_triplets a ++ map (fun t => (row_of t, col_of t, mul alpha (val_of t))) (coo_triplets o)) \/
   (exists e, r = Err e /\
    ((c_nrow a < c_nrow o \/ c_ncol a < c_ncol o \/ c_sym o <> c_sym a) /\ a' = a \/
     c_max a < c_nnz a + c_nnz o))).
Proof. exact coo_add_ok. Qed.

(** the "actual" number of non-zeros is the number of entries the stored triplets stand for (triangular
    storage: each off-diagonal triplet stands for two) *)
Theorem C08_actual_nnz : forall T (c : coo T), coo_valid c ->
  coo_get_actual_nnz T c = length (expand (c_sym c) (coo_triplets c)).
Proof.
  intros T c V. unfold coo_get_actual_nnz, expand. destruct (triangular (c_sym c)) eqn:E; cbn [andb].
  - match goal with |- fold_left ?f ?l 0 = length ?r => assert (G : forall k, fold_left f l k = k + length r) end;
      [|apply (G 0)].
    induction (coo_triplets c) as [|[[i j] x] l IH]; intros k; [cbn; lia|].
    cbn [fold_left flat_map]. rewrite IH, app_length.
    destruct (i =? j); cbn [negb length]; lia.
  - rewrite <- (coo_triplets_length T c V).
    induction (coo_triplets c) as [|[[i j] x] l IH]; [reflexivity|].
    cbn [flat_map app length]. now rewrite IH.
Qed.

Example C08_ex :
  exists a b, coo_new Z 0%Z 3 3 5 SymNo = Ok a /\ coo_new Z 0%Z 1 2 2 SymNo = Ok b /\
  let a1 := fst (coo_run a [OpPut 0 0 1%Z]) in
  let b1 := fst (coo_run b [OpPut 0 0 5%Z; OpPut 0 1 6%Z]) in
  coo_as_dense Z 0%Z Z.add (fst (coo_put_lagrange_block Z a1 b1)) = Ok (mkD 3 3 [1; 0; 5; 0; 0; 6; 5; 6; 0]%Z) /\
  snd (coo_put_lagrange_block Z a1 b1) = Ok tt.
Proof. eexists. eexists. split; [reflexivity|]. split; [reflexivity|]. split; reflexivity. Qed.

(** finding: a failing `assign`/`add`/`put_lagrange_block` is not atomic. Here `add` runs out of
    capacity half way and keeps the first triplet of the other matrix. *)
Theorem C08_add_atomic_refuted :
  exists (a o a' : coo Z) e, coo_valid a /\ coo_valid o /\
    coo_add Z Z.mul a 1%Z o = (a', Err e) /\ coo_triplets a' <> coo_triplets a.
Proof.
  exists (mkCoo SymNo 1 1 0 1 [0] [0] [0%Z]), (mkCoo SymNo 1 1 2 2 [0; 0] [0; 0] [1; 2]%Z).
  eexists. eexists. split; [|split; [|split; [reflexivity|discriminate]]].
  - unfold coo_valid; cbn; splits; try lia; try congruence; try reflexivity.
  - unfold coo_valid; cbn; splits; try lia; try congruence; try reflexivity.
    intros t [<-|[<-|[]]]; cbn; auto.
Qed.

(* ------------------------------------------------------------------ *)
(** * C09: constructor validation *)

(** `CscMatrix::new` accepts exactly valid arrays *)
Theorem C09_csc_new_iff :
  forall (T : Type) nrow ncol bp bi (bx : list T) s,
  (exists m, csc_new T nrow ncol bp bi bx s = Ok m) <->
  1 <= ncol /\ 1 <= nrow /\ (s <> SymNo -> ncol = nrow) /\
  length bp = ncol + 1 /\ (1 <= nth ncol bp 0)%Z /\
  (nth ncol bp 0 <= Z.of_nat (length bi))%Z /\ (nth ncol bp 0 <= Z.of_nat (length bx))%Z /\
  (forall j, j < ncol -> (0 <= nth j bp 0 <= nth (j + 1) bp 0)%Z) /\
  (forall j p, j < ncol -> (nth j bp 0 <= Z.of_nat p < nth (j + 1) bp 0)%Z ->
     (0 <= nth p bi 0 < Z.of_nat nrow)%Z /\
     ((nth j bp 0 < Z.of_nat p)%Z -> (nth (p - 1) bi 0 <= nth p bi 0)%Z)).
Proof. exact csc_new_iff. Qed.

Theorem C09_csr_new_iff :
  forall (T : Type) nrow ncol bp bj (bx : list T) s,
  (exists m, csr_new T nrow ncol bp bj bx s = Ok m) <->
  1 <= nrow /\ 1 <= ncol /\ (s <> SymNo -> nrow = ncol) /\
  length bp = nrow + 1 /\ (1 <= nth nrow bp 0)%Z /\
  (nth nrow bp 0 <= Z.of_nat (length bj))%Z /\ (nth nrow bp 0 <= Z.of_nat (length bx))%Z /\
  (forall i, i < nrow -> (0 <= nth i bp 0 <= nth (i + 1) bp 0)%Z) /\
  (forall i p, i < nrow -> (nth i bp 0 <= Z.of_nat p < nth (i + 1) bp 0)%Z ->
     (0 <= nth p bj 0 < Z.of_nat ncol)%Z /\
     ((nth i bp 0 < Z.of_nat p)%Z -> (nth (p - 1) bj 0 <= nth p bj 0)%Z)).
Proof. exact csr_new_iff. Qed.

(** and then densification and products never go out of bounds *)
Theorem C09_csc_new_protects :
  forall (T : Type) (zero : T) (add mul : T -> T -> T) nrow ncol bp bi bx s m,
  csc_new T nrow ncol bp bi bx s = Ok m ->
  (exists a, csc_as_dense T zero add m = Ok a /\
     dense_is T zero add a nrow ncol (expand s (csc_triplets m))) /\
  (forall v alpha u, length u = ncol -> length v = nrow ->
     exists v', csc_mat_vec_mul T zero add mul m v alpha u = Ok v').
Proof.
  intros T zero add mul nrow ncol bp bi bx s m H. assert (S := csc_new_safe _ _ _ _ _ _ _ _ H).
  destruct (csc_new_fields _ _ _ _ _ _ _ _ H) as (E1 & E2 & E3 & _). split.
  - rewrite <- E1, <- E2, <- E3. now apply csc_as_dense_is.
  - intros v alpha u Hu Hv. destruct (csc_mat_vec_mul_ok T zero add mul m v alpha u S) as (v' & E & _); try congruence.
    eauto.
Qed.

Theorem C09_csr_new_protects :
  forall (T : Type) (zero : T) (add mul : T -> T -> T) nrow ncol bp bj bx s m,
  csr_new T nrow ncol bp bj bx s = Ok m ->
  (exists a, csr_as_dense T zero add m = Ok a /\
     dense_is T zero add a nrow ncol (expand s (csr_triplets m))) /\
  (forall v alpha u, length u = ncol -> length v = nrow ->
     exists v', csr_mat_vec_mul T zero add mul m v alpha u = Ok v').
Proof.
  intros T zero add mul nrow ncol bp bj bx s m H. assert (S := csr_new_safe _ _ _ _ _ _ _ _ H).
  destruct (csr_new_fields _ _ _ _ _ _ _ _ H) as (E1 & E2 & E3 & _). split.
  - rewrite <- E1, <- E2, <- E3. now apply csr_as_dense_is.
  - intros v alpha u Hu Hv. destruct (csr_mat_vec_mul_ok T zero add mul m v alpha u S) as (v' & E & _); try congruence.
    eauto.
Qed.

Example C09_ex : exists m, csc_new Z 2 2 [0; 1; 3]%Z [1; 0; 1]%Z [5; 6; 7]%Z SymNo = Ok m /\
  csc_as_dense Z 0%Z Z.add m = Ok (mkD 2 2 [0; 5; 6; 7]%Z).
Proof. eexists. split; reflexivity. Qed.

(** finding: the constructor itself can panic on bad arrays, because the indices are read before
    the next pointer has been compared with the array length *)
Theorem C09_new_total_refuted :
  csc_new Z 2 2 [0; 100; 1]%Z [0]%Z [5]%Z SymNo = Panic /\
  csr_new Z 2 2 [0; 100; 1]%Z [0]%Z [5]%Z SymNo = Panic.
Proof. split; reflexivity. Qed.

(** `CooMatrix::from` accepts exactly the index arrays that are in range, keeps them, and never panics *)
Theorem C09_coo_from_iff :
  forall (T : Type) nrow ncol ri ci (vv : list T) s,
  ((exists c, coo_from T nrow ncol ri ci vv s = Ok c) <->
   (1 <= nrow /\ 1 <= ncol /\ 1 <= length ri /\ length ci = length ri /\ length vv = length ri /\
    forall k, k < length ri -> (0 <= nth k ri 0 < Z.of_nat nrow)%Z /\ (0 <= nth k ci 0 < Z.of_nat ncol)%Z)) /\
  coo_from T nrow ncol ri ci vv s <> Panic /\
  (forall c, coo_from T nrow ncol ri ci vv s = Ok c ->
   c_sym c = s /\ c_nrow c = nrow /\ c_ncol c = ncol /\ c_nnz c = length ri /\ c_max c = length ri /\
   map Z.of_nat (c_ii c) = ri /\ map Z.of_nat (c_jj c) = ci /\ c_vv c = vv).
Proof.
  intros T nrow ncol ri ci vv s. unfold coo_from. cbv zeta.
  destruct (Nat.ltb_spec nrow 1) as [H1|H1].
  { split; [|split; intros; discriminate]. split; [intros [c E]; discriminate|lia]. }
  destruct (Nat.ltb_spec ncol 1) as [H2|H2].
  { split; [|split; intros; discriminate]. split; [intros [c E]; discriminate|lia]. }
  destruct (Nat.ltb_spec (length ri) 1) as [H3|H3].
  { split; [|split; intros; discriminate]. split; [intros [c E]; discriminate|lia]. }
  destruct (Nat.eqb_spec (length ci) (length ri)) as [H4|H4]; cbn [negb].
  2: { split; [|split; intros; discriminate]. split; [intros [c E]; discriminate|lia]. }
  destruct (Nat.eqb_spec (length vv) (length ri)) as [H5|H5]; cbn [negb].
  2: { split; [|split; intros; discriminate]. split; [intros [c E]; discriminate|lia]. }
  match goal with |- context[for_range 0 (length ri) ?f tt] => set (body := f) end.
  assert (B : forall k u, k < length ri ->
    ((0 <= nth k ri 0 < Z.of_nat nrow)%Z /\ (0 <= nth k ci 0 < Z.of_nat ncol)%Z /\ body k u = Ok tt) \/
    (~ ((0 <= nth k ri 0 < Z.of_nat nrow)%Z /\ (0 <= nth k ci 0 < Z.of_nat ncol)%Z) /\ exists e, body k u = Err e)).
  { intros k u Hk. unfold body. rewrite (vget_ok ri k 0%Z) by auto. cbn [bind].
    destruct (Z.ltb_spec (nth k ri 0%Z) 0); cbn [orb]; [right; split; [lia|eauto]|].
    destruct (Z.leb_spec (Z.of_nat nrow) (nth k ri 0%Z)); [right; split; [lia|eauto]|].
    rewrite (vget_ok ci k 0%Z) by lia. cbn [bind].
    destruct (Z.ltb_spec (nth k ci 0%Z) 0); cbn [orb]; [right; split; [lia|eauto]|].
    destruct (Z.leb_spec (Z.of_nat ncol) (nth k ci 0%Z)); [right; split; [lia|eauto]|].
    left. splits; auto. }
  assert (F : forall n lo, lo + n <= length ri ->
    (for_n n lo body tt = Ok tt /\ forall k, lo <= k < lo + n ->
       (0 <= nth k ri 0 < Z.of_nat nrow)%Z /\ (0 <= nth k ci 0 < Z.of_nat ncol)%Z) \/
    ((exists e, for_n n lo body tt = Err e) /\ exists k, lo <= k < lo + n /\
       ~ ((0 <= nth k ri 0 < Z.of_nat nrow)%Z /\ (0 <= nth k ci 0 < Z.of_nat ncol)%Z))).
  { induction n as [|n IH]; intros lo Hlo; cbn [for_n].
    - left. split; auto. intros; lia.
    - destruct (B lo tt) as [(B1 & B2 & B3)|[B1 [e B2]]]; [lia| |].
      + rewrite B3. cbn [bind]. destruct (IH (S lo)) as [[E G]|[E (k & Hk & G)]]; [lia| |].
        * left. split; auto. intros k Hk. destruct (Nat.eq_dec k lo) as [->|]; [auto|apply G; lia].
        * right. split; auto. exists k. split; [lia|auto].
      + rewrite B2. cbn [bind]. right. split; [eauto|]. exists lo. split; [lia|auto]. }
  assert (ZN : forall l n, (forall k, k < length l -> (0 <= nth k l 0 < n)%Z) -> map Z.of_nat (map Z.to_nat l) = l).
  { clear. induction l as [|a l IH]; intros n G; cbn [map]; auto. f_equal.
    - specialize (G 0). cbn in G. rewrite Z2Nat.id; lia.
    - apply (IH n). intros k Hk. apply (G (S k)). cbn. lia. }
  unfold for_range. rewrite Nat.sub_0_r.
  destruct (F (length ri) 0) as [[E G]|[[e E] (k & Hk & G)]]; [lia| |]; rewrite E; cbn [bind].
  - split; [|split]; [|discriminate|].
    + split; [intros _|eauto]. splits; auto. intros k Hk. apply G. lia.
    + intros c Ec. injection Ec as <-. cbn. splits; auto.
      * apply (ZN ri (Z.of_nat nrow)). intros k Hk. apply G. lia.
      * apply (ZN ci (Z.of_nat ncol)). intros k Hk. apply G. lia.
  - split; [|split; intros; discriminate]. split; [intros [c Ec]; discriminate|].
    intros (_ & _ & _ & _ & _ & C). exfalso. apply G. apply C. lia.
Qed.

(** finding: unlike `new` and `put`, `from` checks neither squareness nor the triangle *)
Theorem C09_coo_from_triangle_refuted :
  (exists c, coo_from Z 1 2 [0]%Z [1]%Z [5]%Z SymYesLower = Ok c /\ ~ coo_valid c) /\
  (exists c, coo_from Z 2 2 [0]%Z [1]%Z [5]%Z SymYesLower = Ok c /\ ~ coo_valid c /\
     snd (coo_put (mkCoo SymYesLower 2 2 0 1 [0] [0] [0%Z]) 0 1 5%Z) <> Ok tt).
Proof.
  split; eexists; splits; try reflexivity; try discriminate.
  - intros (_ & _ & _ & _ & _ & _ & _ & V & _). specialize (V ltac:(discriminate)). discriminate V.
  - intros (_ & _ & _ & _ & _ & _ & _ & _ & V). destruct (V (0, 1, 5%Z)) as (_ & _ & W); [now left|discriminate W].
Qed.

(** finding: repeated indices and a first pointer above zero are accepted; the converted
    matrix then silently drops the entries before the first pointer *)
Theorem C09_new_first_pointer_refuted :
  exists m, csc_new Z 1 1 [1; 2]%Z [0; 0]%Z [5; 6]%Z SymNo = Ok m /\ ~ csc_wf m /\
    csc_as_dense Z 0%Z Z.add m = Ok (mkD 1 1 [6]%Z).
Proof.
  eexists. split; [reflexivity|]. split; [|reflexivity].
  intros (_ & _ & _ & _ & H & _). discriminate H.
Qed.

Print Assumptions C01_coo_history.
Print Assumptions C01_coo_new_ok.
Print Assumptions C02_coo_as_dense.
Print Assumptions C02_coo_to_dense.
Print Assumptions C03_csc_from_coo.
Print Assumptions C03_csc_same_dense.
Print Assumptions C04_csr_from_coo.
Print Assumptions C04_csr_same_dense.
Print Assumptions C05_csc_update_history.
Print Assumptions C05_csr_update_history.
Print Assumptions C05_csc_update_refused.
Print Assumptions C05_csr_update_refused.
Print Assumptions C06_csc_from_csr.
Print Assumptions C06_csr_from_csc.
Print Assumptions C06_csc_from_csr_dense.
Print Assumptions C06_csr_from_csc_dense.
Print Assumptions C06_csr_roundtrip.
Print Assumptions C06_csc_roundtrip.
Print Assumptions C07_coo_mat_vec_mul_order.
Print Assumptions C07_coo_mat_vec_mul.
Print Assumptions C07_coo_mat_vec_mul_update.
Print Assumptions C07_coo_mat_t_vec_mul.
Print Assumptions C07_csc_mat_vec_mul.
Print Assumptions C07_csr_mat_vec_mul.
Print Assumptions C07_mismatch.
Print Assumptions C08_assign.
Print Assumptions C08_add.
Print Assumptions C08_lagrange.
Print Assumptions C08_actual_nnz.
Print Assumptions C09_coo_from_iff.
Print Assumptions C09_coo_from_triangle_refuted.
Print Assumptions C08_assign_cases.
Print Assumptions C08_add_cases.
Print Assumptions C08_add_atomic_refuted.
Print Assumptions C09_csc_new_iff.
Print Assumptions C09_csr_new_iff.
Print Assumptions C09_csc_new_protects.
Print Assumptions C09_csr_new_protects.
Print Assumptions C09_new_total_refuted.
Print Assumptions C09_new_first_pointer_refuted.
