(** C82: the spectral decomposition of symmetric second-order tensors *)
From Coq Require Import Reals Lra Lia List Psatz.
From Verif Require Import Base RBase RSum Dense_Model Dense_Proofs Jacobi_Model Jacobi_Thm Tensor_Model Tensor_Spec Tensor_Lib Tensor_Thm TensorMix3_Thm Spectral_Model.
Import ListNotations.
Open Scope R_scope.

(* ------------------------------------------------------------------ *)
(** * Specification *)

(** three symmetric tensors of trace one, idempotent, mutually orthogonal, that sum to the identity *)
Definition eigenprojectors (P : nat -> m3) : Prop :=
  (forall a, (a < 3)%nat -> eq2 (mtrans (P a)) (P a) /\ mtrace (P a) = 1) /\
  (forall a b, (a < 3)%nat -> (b < 3)%nat -> eq2 (mmul (P a) (P b)) (mscale (kron a b) (P a))) /\
  eq2 (fun i j => sum3 (fun a => P a i j)) mident.
(** the tensor with the principal values l *)
Definition assembled (l : nat -> R) (P : nat -> m3) : m3 := fun i j => sum3 (fun a => l a * P a i j).
(** entries that differ by at most e *)
Definition near (e : R) (a b : m3) : Prop := forall i j, (i < 3)%nat -> (j < 3)%nat -> Rabs (a i j - b i j) <= e.

(** what [sp_new] makes and all the methods keep *)
Definition sp_ok (sp : spectral) : Prop :=
  sp_rep sp <> General /\ length (sp_lambda sp) = 3%nat /\ length (sp_projectors sp) = 3%nat /\
  forall p, In p (sp_projectors sp) -> t2_rep p = sp_rep sp.
Definition lam (sp : spectral) (a : nat) : R := nth a (sp_lambda sp) 0.
Definition proj (sp : spectral) (a : nat) : m3 := tens2 (nth a (sp_projectors sp) (t2_new General)).

(* ------------------------------------------------------------------ *)
(** * Lemmas *)

Lemma entries_initialized n f : (0 < n)%nat -> entries n (d_initialized R n n f) f.
Proof.
  intros Hn. unfold entries, d_initialized, d_wf, dval. cbn [d_nrow d_ncol d_data]. rewrite map_length, seq_length. splits; auto.
  intros i j Hi Hj.
  rewrite (nth_indep _ 0 (f (0 mod n) (0 / n))%nat) by (rewrite map_length, seq_length; apply idx_lt; lia).
  rewrite (map_nth (fun p => f (p mod n) (p / n))%nat). rewrite seq_nth by (apply idx_lt; lia). cbn [Nat.add].
  rewrite Nat.mod_add, Nat.div_add, Nat.mod_small, Nat.div_small by lia. reflexivity.
Qed.

(** the projectors made of the columns of an orthogonal matrix *)
Definition of_cols (V : nat -> nat -> R) (a : nat) : m3 := vdyad (fun i => V i a) (fun i => V i a).
Lemma sum3_sumn f : sum3 f = sumn 3 f.
Proof. unfold sum3, sumn. ring. Qed.
Lemma cols_projectors V : orthogonal 3 V -> eigenprojectors (of_cols V).
Proof.
  intros (HR & HC). unfold eigenprojectors, of_cols, vdyad. splits.
  - intros a Ha. split; [intros i j _ _; unfold mtrans; ring|]. unfold mtrace. rewrite sum3_sumn. rewrite (HC a a Ha Ha). unfold delta. now rewrite Nat.eqb_refl.
  - intros a b Ha Hb i j Hi Hj. unfold mmul, mscale, kron.
    transitivity (V i a * V j b * sumn 3 (fun k => V k a * V k b)).
    + rewrite sum3_sumn, <- sumn_scal. apply sumn_ext. intros. ring.
    + rewrite (HC a b Ha Hb). unfold delta. destruct (Nat.eqb_spec a b) as [->|]; ring.
  - intros i j Hi Hj. rewrite sum3_sumn. rewrite (HR i j Hi Hj). reflexivity.
Qed.

Lemma le1 n V i j : orthogonal n V -> (i < n)%nat -> (j < n)%nat -> Rabs (V i j) <= 1.
Proof.
  intros (HR & _) Hi Hj. specialize (HR i i Hi Hi). unfold delta in HR. rewrite Nat.eqb_refl in HR.
  assert (H : V i j * V i j <= 1).
  { rewrite <- HR. apply Rle_trans with (sumn n (fun k => if (k =? j)%nat then V i j * V i j else 0)).
    - rewrite (sumn_single n _ j Hj); [rewrite Nat.eqb_refl; lra|]. intros k _ Hk. destruct (Nat.eqb_spec k j); [lia|reflexivity].
    - apply sumn_le. intros k _. destruct (Nat.eqb_spec k j) as [->|]; [lra|]. pose proof (Rle_0_sqr (V i k)). unfold Rsqr in *. lra. }
  apply Rabs_le. split; nra.
Qed.

(** from A V = V diag(l), up to e, to the sum of the projectors *)
Lemma cols_near A V l e : orthogonal 3 V -> 0 <= e ->
  (forall i j, (i < 3)%nat -> (j < 3)%nat -> Rabs (sumn 3 (fun m => A i m * V m j) - l j * V i j) <= e) ->
  near (3 * e) A (assembled l (of_cols V)) /\ forall a, (a < 3)%nat -> near e (mmul A (of_cols V a)) (mscale (l a) (of_cols V a)).
Proof.
  intros HO He H. split.
  - intros i j Hi Hj. unfold assembled, of_cols, vdyad. rewrite sum3_sumn.
    assert (E : A i j = sumn 3 (fun a => sumn 3 (fun m => A i m * V m a) * V j a)).
    { rewrite (sumn_ext 3 _ (fun a => sumn 3 (fun m => A i m * (V m a * V j a)))) by (intros; rewrite <- sumn_scal_r; apply sumn_ext; intros; ring).
      rewrite sumn_swap. rewrite (sumn_ext 3 _ (fun m => A i m * delta m j)).
      - rewrite (sumn_single 3 _ j Hj); [unfold delta; rewrite Nat.eqb_refl; ring|]. intros b _ Hb. unfold delta. destruct (Nat.eqb_spec b j); [lia|ring].
      - intros m Hm. rewrite sumn_scal. destruct HO as (HR & _). now rewrite HR. }
    rewrite E. rewrite <- sumn_minus.
    assert (B : forall a, (a < 3)%nat -> Rabs (sumn 3 (fun m => A i m * V m a) * V j a - l a * (V i a * V j a)) <= e).
    { intros a Ha. replace (sumn 3 (fun m => A i m * V m a) * V j a - l a * (V i a * V j a)) with ((sumn 3 (fun m => A i m * V m a) - l a * V i a) * V j a) by ring.
      rewrite Rabs_mult. pose proof (H i a Hi Ha). pose proof (le1 3 V j a HO Hj Ha). pose proof (Rabs_pos (V j a)). pose proof (Rabs_pos (sumn 3 (fun m => A i m * V m a) - l a * V i a)). nra. }
    pose proof (B 0%nat ltac:(lia)). pose proof (B 1%nat ltac:(lia)). pose proof (B 2%nat ltac:(lia)).
    cbv beta. set (f := fun a => sumn 3 (fun m => A i m * V m a) * V j a - l a * (V i a * V j a)) in *.
    change (Rabs (sumn 3 f) <= 3 * e). fold (f 0%nat) (f 1%nat) (f 2%nat) in *. cbn [sumn].
    pose proof (Rabs_triang (0 + f 0%nat + f 1%nat) (f 2%nat)). pose proof (Rabs_triang (0 + f 0%nat) (f 1%nat)). replace (0 + f 0%nat) with (f 0%nat) in * by ring. lra.
  - intros a Ha i j Hi Hj. unfold mmul, mscale, of_cols, vdyad. rewrite sum3_sumn.
    replace (sumn 3 (fun k => A i k * (V k a * V j a)) - l a * (V i a * V j a)) with ((sumn 3 (fun k => A i k * V k a) - l a * V i a) * V j a)
      by (rewrite (sumn_ext 3 (fun k => A i k * (V k a * V j a)) (fun k => A i k * V k a * V j a)) by (intros; ring); rewrite sumn_scal_r; ring).
    rewrite Rabs_mult. pose proof (H i a Hi Ha). pose proof (le1 3 V j a HO Hj Ha). pose proof (Rabs_pos (V j a)). pose proof (Rabs_pos (sumn 3 (fun k => A i k * V k a) - l a * V i a)). nra.
Qed.

Lemma eigenprojectors_ext P Q : (forall a, (a < 3)%nat -> eq2 (P a) (Q a)) -> eigenprojectors Q -> eigenprojectors P.
Proof.
  intros E (H1 & H2 & H3). unfold eigenprojectors. splits.
  - intros a Ha. destruct (H1 a Ha) as (S & T). split.
    + intros i j Hi Hj. unfold mtrans. rewrite !(E a Ha) by auto. now apply S.
    + rewrite <- T. unfold mtrace, sum3. rewrite !(E a Ha) by lia. reflexivity.
  - intros a b Ha Hb i j Hi Hj. specialize (H2 a b Ha Hb i j Hi Hj). unfold mmul, mscale, sum3 in *. rewrite !(E a Ha), !(E b Hb) by (auto; lia). exact H2.
  - intros i j Hi Hj. rewrite <- (H3 i j Hi Hj). unfold sum3. rewrite !(E _) by (auto; lia). reflexivity.
Qed.

Lemma dyad_self p u : t2_rep p <> General -> (t2_rep p = Symmetric2D -> u 2%nat = 0) ->
  exists p', t1_dyad_t1 p 1 u u = (p', Ok tt) /\ t2_rep p' = t2_rep p /\ eq2 (tens2 p') (vdyad u u).
Proof.
  intros HG H2. assert (SY : eq2 (mtrans (vdyad u u)) (vdyad u u)) by (intros i j _ _; unfold mtrans, vdyad; ring).
  destruct (t2_rep p) eqn:R; [congruence| |].
  - destruct (C63_t1_dyad_t1_symmetric p 1 u u R) as [(_ & p' & E & R' & T)|(N & _)]; [|contradiction].
    exists p'. splits; auto. intros i j Hi Hj. rewrite (T i j Hi Hj). unfold mscale. ring.
  - destruct (C63_t1_dyad_t1_2d p 1 u u R) as [(_ & p' & E & R' & T)|(N & _)]; auto; [|contradiction].
    exists p'. splits; auto. intros i j Hi Hj. rewrite (T i j Hi Hj). unfold mscale. ring.
Qed.

Lemma sym_tens t : t2_rep t <> General -> eq2 (mtrans (tens2 t)) (tens2 t).
Proof. destruct t as [[| |] v]; cbn [t2_rep]; intros H; [congruence| |]; done2. Qed.

Lemma sp_dyad_ok ps r k u : length ps = 3%nat -> (forall p, In p ps -> t2_rep p = r) -> r <> General -> (k < 3)%nat -> (r = Symmetric2D -> u 2%nat = 0) ->
  exists p', sp_dyad ps k u = Ok (upd ps k p') /\ t2_rep p' = r /\ eq2 (tens2 p') (vdyad u u).
Proof.
  intros L HR HG Hk H2. unfold sp_dyad. rewrite (vget_ok _ _ (t2_new General)) by lia. cbn [bind].
  assert (R : t2_rep (nth k ps (t2_new General)) = r) by (apply HR, nth_In; lia).
  destruct (dyad_self (nth k ps (t2_new General)) u) as (p' & E & R' & T); [congruence|rewrite R; auto|].
  rewrite E. cbn [unwrap bind]. rewrite vset_ok by lia. exists p'. splits; auto. congruence.
Qed.

Lemma in_upd {A} (l : list A) k x y : In y (upd l k x) -> y = x \/ In y l.
Proof.
  intros I. apply (In_nth _ _ x) in I. destruct I as (m & Hm & E). rewrite upd_length in Hm.
  destruct (Nat.eq_dec m k) as [->|N]; [left; rewrite <- E, nth_upd_eq by lia; reflexivity|].
  right. rewrite nth_upd_ne in E by auto. rewrite <- E. apply nth_In. lia.
Qed.

Definition jacobi_error : R := 172 * 1e-15.

(** the block matrix made of a 2 x 2 matrix and a one *)
Definition block (V : nat -> nat -> R) (i j : nat) : R := if ((i <? 2) && (j <? 2))%nat then V i j else delta i j.
Lemma block_orthogonal V : orthogonal 2 V -> orthogonal 3 (block V).
Proof.
  intros (HR & HC). split; intros i j Hi Hj; cbn [sumn].
  - destruct i as [|[|[|i]]]; [| | |lia]; (destruct j as [|[|[|j]]]; [| | |lia]); unfold block, delta; cbn [Nat.ltb Nat.leb andb Nat.eqb]; try ring;
      match goal with |- context [V ?a 0%nat * V ?b 0%nat] => pose proof (HR a b ltac:(lia) ltac:(lia)) as Q end; cbn [sumn delta Nat.eqb] in Q; unfold delta in Q; cbn [Nat.eqb] in Q; lra.
  - destruct i as [|[|[|i]]]; [| | |lia]; (destruct j as [|[|[|j]]]; [| | |lia]); unfold block, delta; cbn [Nat.ltb Nat.leb andb Nat.eqb]; try ring;
      match goal with |- context [V 0%nat ?a * V 0%nat ?b] => pose proof (HC a b ltac:(lia) ltac:(lia)) as Q end; cbn [sumn delta Nat.eqb] in Q; unfold delta in Q; cbn [Nat.eqb] in Q; lra.
Qed.

(* ------------------------------------------------------------------ *)
(** * C82 *)

Theorem C82_new two_dim : sp_ok (sp_new two_dim) /\ (sp_rep (sp_new two_dim) = if two_dim then Symmetric2D else Symmetric).
Proof. unfold sp_ok, sp_new. cbn [sp_rep sp_lambda sp_projectors]. destruct two_dim; splits; cbn; auto; try discriminate; intros p [<-|[<-|[<-|[]]]]; reflexivity. Qed.

Lemma three (P : nat -> Prop) : P 0%nat -> P 1%nat -> P 2%nat -> forall a, (a < 3)%nat -> P a.
Proof. intros H0 H1 H2 a Ha. destruct a as [|[|[|a]]]; auto; lia. Qed.

Lemma finish t sp' V l : eq2 (proj sp' 0) (of_cols V 0) -> eq2 (proj sp' 1) (of_cols V 1) -> eq2 (proj sp' 2) (of_cols V 2) ->
  (forall a, (a < 3)%nat -> lam sp' a = l a) -> orthogonal 3 V ->
  (forall i j, (i < 3)%nat -> (j < 3)%nat -> Rabs (sumn 3 (fun m => tens2 t i m * V m j) - l j * V i j) <= jacobi_error) ->
  eigenprojectors (proj sp') /\ near 6e-13 (tens2 t) (assembled (lam sp') (proj sp')) /\
  forall a, (a < 3)%nat -> near 2e-13 (mmul (tens2 t) (proj sp' a)) (mscale (lam sp' a) (proj sp' a)).
Proof.
  intros P0 P1 P2 HL HO HE.
  assert (HP : forall a, (a < 3)%nat -> eq2 (proj sp' a) (of_cols V a)) by (apply (three (fun a => eq2 (proj sp' a) (of_cols V a))); auto).
  destruct (cols_near (tens2 t) V l jacobi_error HO ltac:(unfold jacobi_error; lra) HE) as (N1 & N2).
  splits.
  - apply (eigenprojectors_ext _ (of_cols V)); auto. now apply cols_projectors.
  - intros i j Hi Hj. unfold assembled, sum3. rewrite !HL, (P0 i j Hi Hj), (P1 i j Hi Hj), (P2 i j Hi Hj) by lia.
    specialize (N1 i j Hi Hj). unfold assembled, sum3 in N1. eapply Rle_trans; [exact N1|]. unfold jacobi_error. lra.
  - intros a Ha i j Hi Hj. specialize (N2 a Ha i j Hi Hj). unfold mmul, mscale, sum3 in *. rewrite HL, !(HP a Ha) by (auto; lia). eapply Rle_trans; [exact N2|]. unfold jacobi_error. lra.
Qed.

(** the decomposition of any tensor of the representation of the object: the eigenvalue routine may
    fail to converge, but not in two dimensions; otherwise the projectors are exactly eigenprojectors, and
    the tensor is the assembled one, up to the tolerances of the Jacobi rotations *)
Theorem C82_decompose sp t : sp_ok sp -> t2_rep t = sp_rep sp ->
  (sp_rep sp = Symmetric /\ sp_decompose sp t = Err "Jacobi rotation did not converge") \/
  exists sp', sp_decompose sp t = Ok sp' /\ sp_ok sp' /\ sp_rep sp' = sp_rep sp /\ eigenprojectors (proj sp') /\
    near 6e-13 (tens2 t) (assembled (lam sp') (proj sp')) /\
    forall a, (a < 3)%nat -> near 2e-13 (mmul (tens2 t) (proj sp' a)) (mscale (lam sp' a) (proj sp' a)).
Proof.
  intros (HG & LL & LP & HR) ER. unfold sp_decompose. rewrite ER.
  replace (rep_eqb (sp_rep sp) (sp_rep sp)) with true by (destruct (sp_rep sp); reflexivity). cbn [negb].
  assert (SY := sym_tens t ltac:(congruence)).
  destruct (sp_rep sp) eqn:RE; [congruence| |].
  - (* three dimensions *)
    unfold t2_dim. rewrite ER. cbn [rep_dim Nat.eqb].
    destruct (C61_to_std_matrix t) as (mm & E & EM). rewrite E. cbn [bind].
    assert (En : entries 3 (d_initialized R 3 3 mm) (tens2 t)).
    { destruct (entries_initialized 3 mm ltac:(lia)) as (W & N1 & N2 & G). split; [exact W|]. split; [exact N1|]. split; [exact N2|]. intros i j Hi Hj. rewrite G, EM; auto. }
    destruct (C20_eigenpairs 3 (d_initialized R 3 3 mm) (tens2 t) (sp_lambda sp) (d_new R 0 3 3)) as [F|(k & l' & v' & a' & V & F & Hk & Ev & HO & Hl & HE)]; auto; try (apply d_new_wf).
    { intros i j Hi Hj. exact (SY j i Hj Hi). }
    { left. split; [reflexivity|]. rewrite F. reflexivity. }
    right. rewrite F. cbn [bind]. destruct Ev as (Wv & Nv1 & Nv2 & Gv).
    rewrite !(d_get_val R 0) by (auto; lia). cbn [bind]. rewrite !Gv by lia.
    destruct (sp_dyad_ok (sp_projectors sp) Symmetric 0 (t1_from (V 0 0) (V 1 0) (V 2 0))%nat) as (p0 & E0 & R0 & T0); auto; [discriminate|]. rewrite E0. cbn [bind].
    destruct (sp_dyad_ok (upd (sp_projectors sp) 0 p0) Symmetric 1 (t1_from (V 0 1) (V 1 1) (V 2 1))%nat) as (p1 & E1 & R1 & T1); auto; [now rewrite upd_length| |discriminate|].
    { intros p I. apply in_upd in I. destruct I as [->|I]; auto. }
    rewrite E1. cbn [bind].
    destruct (sp_dyad_ok (upd (upd (sp_projectors sp) 0 p0) 1 p1) Symmetric 2 (t1_from (V 0 2) (V 1 2) (V 2 2))%nat) as (p2 & E2 & R2 & T2); auto; [now rewrite !upd_length| |discriminate|].
    { intros p I. apply in_upd in I. destruct I as [->|I]; auto. apply in_upd in I. destruct I as [->|I]; auto. }
    rewrite E2. cbn [bind]. eexists. split; [reflexivity|]. split.
    { unfold sp_ok. cbn [sp_rep sp_lambda sp_projectors]. rewrite !upd_length. splits; auto.
      intros p I. apply in_upd in I. destruct I as [->|I]; auto. apply in_upd in I. destruct I as [->|I]; auto. apply in_upd in I. destruct I as [->|I]; auto. }
    split; [reflexivity|].
    assert (FD : forall a b c i, (i < 3)%nat -> t1_from a b c i = match i with 0 => a | 1 => b | _ => c end%nat) by (intros a b c i Hi; idx i; reflexivity).
    apply (finish t _ V (fun a => nth a l' 0)); auto.
    + intros i j Hi Hj. unfold proj. cbn [sp_projectors]. rewrite !nth_upd_ne, nth_upd_eq by (rewrite ?upd_length; lia). rewrite (T0 i j Hi Hj). unfold vdyad, of_cols. rewrite !FD by auto. unfold vdyad. idx i; idx j; reflexivity.
    + intros i j Hi Hj. unfold proj. cbn [sp_projectors]. rewrite nth_upd_ne, nth_upd_eq by (rewrite ?upd_length; lia). rewrite (T1 i j Hi Hj). unfold vdyad, of_cols. rewrite !FD by auto. unfold vdyad. idx i; idx j; reflexivity.
    + intros i j Hi Hj. unfold proj. cbn [sp_projectors]. rewrite nth_upd_eq by (rewrite ?upd_length; lia). rewrite (T2 i j Hi Hj). unfold vdyad, of_cols. rewrite !FD by auto. unfold vdyad. idx i; idx j; reflexivity.
    + intros i j Hi Hj. eapply Rle_trans; [exact (HE i j Hi Hj)|]. unfold jacobi_error.
      assert (K : INR (k - 1) <= 19) by (change 19 with (IZR 19); replace 19 with (INR 19) by (cbn; lra); apply le_INR; lia).
      replace (INR 3) with 3 by (cbn; lra). replace (INR (3 - 1)) with 2 by (cbn; lra). lra.
  - (* two dimensions *)
    unfold t2_dim. rewrite ER. cbn [rep_dim Nat.eqb].
    destruct (C61_as_std_matrix_2d t ER) as (mm & E & EM & Z). rewrite E. cbn [bind].
    assert (En : entries 2 (d_initialized R 2 2 mm) (tens2 t)).
    { destruct (entries_initialized 2 mm ltac:(lia)) as (W & N1 & N2 & G). split; [exact W|]. split; [exact N1|]. split; [exact N2|]. intros i j Hi Hj. rewrite G, EM; auto. }
    destruct (C20_two_by_two (d_initialized R 2 2 mm) (tens2 t) [0; 0] (d_new R 0 2 2) En) as (k0 & l0 & v0 & a0 & F0 & _); auto; try (apply d_new_wf).
    { exact (SY 1%nat 0%nat ltac:(lia) ltac:(lia)). }
    destruct (C20_eigenpairs 2 (d_initialized R 2 2 mm) (tens2 t) [0; 0] (d_new R 0 2 2)) as [F|(k & l' & v' & a' & V & F & Hk & Ev & HO & Hl & HE)]; auto; try (apply d_new_wf).
    { intros i j Hi Hj. apply (SY j i); lia. }
    { rewrite F0 in F. discriminate. }
    clear k0 l0 v0 a0 F0. right. rewrite F. cbn [bind]. destruct Ev as (Wv & Nv1 & Nv2 & Gv).
    rewrite !(vget_ok l' _ 0) by lia. cbn [bind].
    rewrite !vset_ok by (rewrite ?upd_length; lia). cbn [bind]. rewrite !vset_ok by (rewrite ?upd_length; lia). cbn [bind]. rewrite !vset_ok by (rewrite ?upd_length; lia). cbn [bind].
    rewrite !(d_get_val R 0) by (auto; lia). cbn [bind]. rewrite !Gv by lia.
    destruct (sp_dyad_ok (sp_projectors sp) Symmetric2D 0 (t1_from (V 0 0) (V 1 0) 0)%nat) as (p0 & E0 & R0 & T0); auto. rewrite E0. cbn [bind].
    destruct (sp_dyad_ok (upd (sp_projectors sp) 0 p0) Symmetric2D 1 (t1_from (V 0 1) (V 1 1) 0)%nat) as (p1 & E1 & R1 & T1); auto; [now rewrite upd_length| |].
    { intros p I. apply in_upd in I. destruct I as [->|I]; auto. }
    rewrite E1. cbn [bind]. rewrite (vget_ok _ 2 (t2_new General)) by (rewrite !upd_length; lia). cbn [bind].
    rewrite !nth_upd_ne by lia. set (p2 := nth 2 (sp_projectors sp) (t2_new General)).
    assert (R2 : t2_rep p2 = Symmetric2D) by (apply HR, nth_In; lia).
    rewrite vset_ok by (rewrite !upd_length; lia). cbn [bind]. rewrite (vget_ok _ 2 (t2_new General)) by (rewrite !upd_length; lia). cbn [bind].
    rewrite nth_upd_eq by (rewrite !upd_length; lia). unfold t2_set. cbn [Nat.ltb Nat.leb bind]. rewrite vset_ok by (rewrite !upd_length; lia). cbn [bind].
    eexists. split; [reflexivity|]. split.
    { unfold sp_ok. cbn [sp_rep sp_lambda sp_projectors]. rewrite !upd_length. splits; auto.
      intros p I. apply in_upd in I. destruct I as [->|I]; [exact R2|]. apply in_upd in I. destruct I as [->|I]; [exact R2|]. apply in_upd in I. destruct I as [->|I]; auto. apply in_upd in I. destruct I as [->|I]; auto. }
    split; [reflexivity|].
    assert (FD : forall a b c i, (i < 3)%nat -> t1_from a b c i = match i with 0 => a | 1 => b | _ => c end%nat) by (intros a b c i Hi; idx i; reflexivity).
    apply (finish t _ (block V) (fun a => match a with 0 => nth 0 l' 0%R | 1 => nth 1 l' 0%R | _ => tens2 t 2 2 end%nat)).
    + intros i j Hi Hj. unfold proj. cbn [sp_projectors]. rewrite !nth_upd_ne, nth_upd_eq by (rewrite ?upd_length; lia). rewrite (T0 i j Hi Hj). unfold vdyad, of_cols. rewrite !FD by auto. unfold vdyad, block. idx i; idx j; reflexivity.
    + intros i j Hi Hj. unfold proj. cbn [sp_projectors]. rewrite !nth_upd_ne, nth_upd_eq by (rewrite ?upd_length; lia). rewrite (T1 i j Hi Hj). unfold vdyad, of_cols. rewrite !FD by auto. unfold vdyad, block. idx i; idx j; reflexivity.
    + intros i j Hi Hj. unfold proj. cbn [sp_projectors]. rewrite nth_upd_eq by (rewrite ?upd_length; lia). tens. unfold t2_dim. cbn [t2_rep t2_clear t2_put t2_vec]. rewrite R2. unfold of_cols, vdyad, block.
      idx i; idx j; unfold delta; tred; kfield.
    + apply three; unfold lam; cbn [sp_lambda]; destruct (sp_lambda sp) as [|x0 [|x1 [|x2 [|x3 r]]]]; try discriminate LL; reflexivity.
    + now apply block_orthogonal.
    + assert (HE' : forall i j, (i < 2)%nat -> (j < 2)%nat -> Rabs (sumn 2 (fun m => tens2 t i m * V m j) - nth j l' 0 * V i j) <= jacobi_error).
      { intros i j Hi Hj. eapply Rle_trans; [exact (HE i j Hi Hj)|]. unfold jacobi_error.
        assert (K : INR (k - 1) <= 19) by (replace 19 with (INR 19) by (cbn; lra); apply le_INR; lia).
        replace (INR 2) with 2 by (cbn; lra). replace (INR (2 - 1)) with 1 by (cbn; lra). lra. }
      assert (J : 0 <= jacobi_error) by (unfold jacobi_error; lra).
      destruct (Z 0%nat ltac:(lia)) as (Z1 & Z2). destruct (Z 1%nat ltac:(lia)) as (Z3 & Z4).
      intros i j Hi Hj. cbn [sumn]. idx i; idx j; unfold block, delta; cbn [Nat.ltb Nat.leb andb Nat.eqb]; rewrite ?Z1, ?Z2, ?Z3, ?Z4;
        try (match goal with |- Rabs ?x <= _ => replace x with 0 by ring end; rewrite Rabs_R0; exact J);
        match goal with |- context [nth ?j l' 0 * V ?i ?j] => pose proof (HE' i j ltac:(lia) ltac:(lia)) as Q end; cbn [sumn] in Q;
        match goal with |- Rabs ?x <= _ => match type of Q with Rabs ?y <= _ => replace x with y by ring end end; exact Q.
Qed.

(** another representation is refused *)
Theorem C82_decompose_refused sp t : t2_rep t <> sp_rep sp -> sp_decompose sp t = Err "the representation is incompatible".
Proof. intros H. unfold sp_decompose. destruct (t2_rep t), (sp_rep sp); try congruence; reflexivity. Qed.

(** composition: the tensor with the given principal values along the projectors *)
Theorem C82_compose sp c l : sp_ok sp ->
  (t2_rep c = sp_rep sp -> length l = 3%nat -> exists c', sp_compose sp c l = Ok c' /\ t2_rep c' = sp_rep sp /\
     eq2 (tens2 c') (assembled (fun a => nth a l 0) (proj sp))) /\
  (t2_rep c <> sp_rep sp -> sp_compose sp c l = Err "the representation is incompatible") /\
  (t2_rep c = sp_rep sp -> length l <> 3%nat -> sp_compose sp c l = Err "lambda.dim must be equal to 3").
Proof.
  intros (HG & LL & LP & HR). unfold sp_compose. splits.
  2:{ intros H. destruct (t2_rep c), (sp_rep sp); try congruence; reflexivity. }
  2:{ intros -> H. replace (rep_eqb (sp_rep sp) (sp_rep sp)) with true by (destruct (sp_rep sp); reflexivity). cbn [negb]. destruct (Nat.eqb_spec (length l) 3); [lia|reflexivity]. }
  intros RC L3. rewrite RC. replace (rep_eqb (sp_rep sp) (sp_rep sp)) with true by (destruct (sp_rep sp); reflexivity). rewrite L3. cbn [negb Nat.eqb].
  destruct (sp_projectors sp) as [|p0 [|p1 [|p2 [|p3 r]]]] eqn:EP; try discriminate LP.
  destruct l as [|l0 [|l1 [|l2 [|l3 r]]]]; try discriminate L3.
  assert (Q0 := HR p0 ltac:(now left)). assert (Q1 := HR p1 ltac:(right; now left)). assert (Q2 := HR p2 ltac:(right; right; now left)).
  change (vget [p0; p1; p2] 0) with (Ok p0). change (vget [p0; p1; p2] 1) with (Ok p1). change (vget [p0; p1; p2] 2) with (Ok p2).
  change (vget [l0; l1; l2] 0) with (Ok l0). change (vget [l0; l1; l2] 1) with (Ok l1). change (vget [l0; l1; l2] 2) with (Ok l2). cbn [bind].
  unfold proj, assembled. rewrite EP. cbn [nth].
  destruct p0 as [r0 v0], p1 as [r1 v1], p2 as [r2 v2], c as [rc vc]. cbn [t2_rep] in *. subst r0 r1 r2 rc.
  destruct (sp_rep sp) eqn:RE; [congruence| |]; unfold t2_dim; cbn [t2_rep rep_dim]; unfold for_range; cbn [for_n Nat.sub];
    unfold t2_get, t2_set; cbn [Nat.ltb Nat.leb bind t2_vec t2_rep]; (eexists; split; [reflexivity|]); (split; [reflexivity|]);
    intros i j Hi Hj; unfold sum3; tens; idx i; idx j; tred; kfield.
Qed.

(** decomposing and composing with the same principal values gives the tensor back *)
Theorem C82_roundtrip sp t sp' c : sp_ok sp -> sp_decompose sp t = Ok sp' -> t2_rep c = sp_rep sp ->
  exists c', sp_compose sp' c (sp_lambda sp') = Ok c' /\ t2_rep c' = t2_rep t /\ near 6e-13 (tens2 t) (tens2 c').
Proof.
  intros H E RC. destruct (rep_eqb (t2_rep t) (sp_rep sp)) eqn:RB.
  2:{ rewrite C82_decompose_refused in E; [discriminate|]. intros Q. rewrite Q in RB. destruct (sp_rep sp); discriminate. }
  assert (R : t2_rep t = sp_rep sp) by (destruct (t2_rep t), (sp_rep sp); auto; discriminate).
  destruct (C82_decompose sp t H R) as [(_ & F)|(s & F & OK & RR & _ & N & _)]; rewrite E in F; [discriminate|]. injection F as <-.
  destruct (C82_compose sp' c (sp_lambda sp') OK) as (K & _ & _). destruct K as (c' & E2 & R2 & T2); [congruence|apply OK|].
  exists c'. splits; [exact E2|congruence|]. intros i j Hi Hj. rewrite (T2 i j Hi Hj). exact (N i j Hi Hj).
Qed.

(** the octahedral coordinates are those of the principal values in a rotated frame: lengths are kept, the
    second coordinate is along the hydrostatic axis and the others measure the deviation from the mean *)
Theorem C82_octahedral sp : length (sp_lambda sp) = 3%nat -> exists x y z, sp_octahedral sp = Ok (x, y, z) /\
  let mean := (lam sp 0 + lam sp 1 + lam sp 2) / 3 in
  y = sqrt 3 * mean /\ x = sqrt (3 / 2) * (lam sp 0%nat - mean) /\
  x * x + z * z = (lam sp 0 - mean) * (lam sp 0 - mean) + (lam sp 1 - mean) * (lam sp 1 - mean) + (lam sp 2 - mean) * (lam sp 2 - mean) /\
  x * x + y * y + z * z = lam sp 0 * lam sp 0 + lam sp 1 * lam sp 1 + lam sp 2 * lam sp 2 /\
  (z = 0 <-> lam sp 1 = lam sp 2) /\ (lam sp 1 < lam sp 2 <-> 0 < z).
Proof.
  intros L. unfold sp_octahedral, lam. destruct (sp_lambda sp) as [|s1 [|s2 [|s3 [|q r]]]]; try discriminate L.
  cbn [vget nth_error bind nth]. eexists _, _, _. split; [reflexivity|]. cbv zeta.
  assert (A2 : SQRT_2 * SQRT_2 = 2) by (unfold SQRT_2; apply sqrt_sqrt; lra). assert (P2 : 0 < SQRT_2) by (unfold SQRT_2; apply sqrt_lt_R0; lra).
  assert (A3 : SQRT_3 * SQRT_3 = 3) by (unfold SQRT_3; apply sqrt_sqrt; lra). assert (P3 : 0 < SQRT_3) by (unfold SQRT_3; apply sqrt_lt_R0; lra).
  assert (A6 : SQRT_6 * SQRT_6 = 6) by (unfold SQRT_6; apply sqrt_sqrt; lra). assert (P6 : 0 < SQRT_6) by (unfold SQRT_6; apply sqrt_lt_R0; lra).
  assert (D : forall a b, 0 < b -> a / b * (a / b) = a * a / (b * b)) by (intros; field; lra).
  splits.
  - change (sqrt 3) with SQRT_3. apply (Rmult_eq_reg_r SQRT_3); [|lra]. transitivity (s1 + s2 + s3); [field; lra|]. transitivity (SQRT_3 * SQRT_3 * ((s1 + s2 + s3) / 3)); [rewrite A3; field | ring].
  - assert (S : sqrt (3 / 2) = 3 / SQRT_6).
    { apply sqrt_lem_1; [lra | apply Rlt_le, Rdiv_lt_0_compat; lra|]. rewrite D, A6 by lra. field. }
    rewrite S. field. lra.
  - rewrite !D, A6, A2 by lra. field.
  - rewrite !D, A6, A2, A3 by lra. field.
  - split.
    + intros H. apply (f_equal (fun u => u * SQRT_2)) in H. unfold Rdiv in H. rewrite Rmult_assoc, Rinv_l, Rmult_0_l in H by lra. lra.
    + intros ->. unfold Rdiv. ring.
  - split.
    + intros H. apply Rdiv_lt_0_compat; lra.
    + intros H. apply (Rmult_lt_compat_r SQRT_2) in H; [|lra]. unfold Rdiv in H. rewrite Rmult_assoc, Rinv_l, Rmult_0_l in H by lra. lra.
Qed.

(** a two-dimensional tensor with equal diagonal entries: one rotation gives its principal values *)
Example C82_example :
  let t := mkT2 Symmetric2D (fun k => match k with 0%nat => 3 | 1%nat => 3 | 2%nat => 7 | 3%nat => SQRT_2 | _ => 0 end) in
  sp_ok (sp_new true) /\ t2_rep t = sp_rep (sp_new true) /\ tens2 t 0%nat 1%nat = 1 /\ tens2 t 0%nat 0%nat = 3 /\
  exists sp', sp_decompose (sp_new true) t = Ok sp'.
Proof.
  cbv zeta. destruct (C82_new true) as (H & R). split; [exact H|]. split; [reflexivity|]. split; [tens; tred; kfield|]. split; [tens; tred; kfield|].
  match goal with |- exists _, sp_decompose _ ?t = _ => destruct (C82_decompose (sp_new true) t H eq_refl) as [(Q & _)|(s & E & _)]; [discriminate Q | now exists s] end.
Qed.

Print Assumptions C82_new.
Print Assumptions C82_decompose.
Print Assumptions C82_decompose_refused.
Print Assumptions C82_compose.
Print Assumptions C82_roundtrip.
Print Assumptions C82_octahedral.
