(** C75: the Gauss-Jordan elimination with full pivoting replaces the matrix by
    its exact inverse and the right-hand sides by the exact solutions. *)
From Coq Require Import Reals Lra List.
From Verif Require Import Base RBase Tensor_Model Tensor_Spec Tensor_Lib TensorMix_Thm SmallMat_Model SmallMat_Thm.
Import ListNotations.
Open Scope R_scope.

Definition tr (p q j : nat) : nat := if (j =? p)%nat then q else if (j =? q)%nat then p else j.
Fixpoint tau (r c : nat -> nat) (m j : nat) : nat :=
  match m with O => j | S l => tau r c l (tr (r l) (c l) j) end.
Lemma tr_tr p q j : tr p q (tr p q j) = j.
Proof.
  unfold tr. destruct (Nat.eqb_spec j p) as [->|].
  - destruct (Nat.eqb_spec q p); [congruence|]. rewrite Nat.eqb_refl. reflexivity.
  - destruct (Nat.eqb_spec j q) as [->|].
    + rewrite Nat.eqb_refl. reflexivity.
    + destruct (Nat.eqb_spec j p), (Nat.eqb_spec j q); try contradiction; reflexivity.
Qed.
Lemma tr_lt N p q j : (p < N)%nat -> (q < N)%nat -> (j < N)%nat -> (tr p q j < N)%nat.
Proof. intros. unfold tr. destruct (j =? p)%nat, (j =? q)%nat; assumption. Qed.
Lemma tau_lt N r c m : (forall l, (l < m)%nat -> (r l < N)%nat /\ (c l < N)%nat) -> forall j, (j < N)%nat -> (tau r c m j < N)%nat.
Proof.
  induction m; intros H j Hj; cbn [tau]; [exact Hj|]. apply IHm; [intros; apply H; lia|].
  destruct (H m ltac:(lia)). apply tr_lt; assumption.
Qed.
Lemma tau_ext r c r' c' m : (forall l, (l < m)%nat -> r l = r' l /\ c l = c' l) -> forall j, tau r c m j = tau r' c' m j.
Proof.
  induction m; intros H j; cbn [tau]; [reflexivity|]. destruct (H m ltac:(lia)) as [-> ->]. apply IHm. intros. apply H. lia.
Qed.
Lemma swap_rows_same w c i j : swap_rows w c c i j = w i j.
Proof. unfold swap_rows. destruct (Nat.eqb_spec i c) as [->|]; [|destruct (Nat.eqb_spec i c)]; reflexivity || contradiction. Qed.
Lemma swap_cols N a p q i j : (i < N)%nat ->
  loop N (fun k a => swap_in_row a k p q) a i j = a i (tr p q j).
Proof.
  assert (H : forall m i j, loop m (fun k a => swap_in_row a k p q) a i j = if (i <? m)%nat then a i (tr p q j) else a i j).
  { clear. induction m; intros i j; [reflexivity|]. rewrite loop_S. unfold swap_in_row. rewrite !IHm, Nat.ltb_irrefl.
    destruct (Nat.eqb_spec i m) as [->|].
    - destruct (Nat.ltb_spec m (S m)); [|lia]. unfold tr. destruct (j =? p)%nat; [reflexivity|]. destruct (j =? q)%nat; reflexivity.
    - destruct (Nat.ltb_spec i (S m)), (Nat.ltb_spec i m); try lia; reflexivity. }
  intros Hi. rewrite H. destruct (Nat.ltb_spec i N); [reflexivity|lia].
Qed.
Lemma unscramble N r c : forall count a V, (forall i j, (i < N)%nat -> a i j = V i (tau r c count j)) ->
  forall i j, (i < N)%nat -> nr_unscramble N count r c a i j = V i j.
Proof.
  induction count; intros a V H i j Hi; cbn [nr_unscramble]; [apply H; exact Hi|].
  apply IHcount; [|exact Hi]. clear i j Hi. intros i j Hi.
  destruct (Nat.eqb_spec (r count) (c count)) as [E|N']; cbn [negb].
  - rewrite H by exact Hi. cbn [tau]. rewrite E. unfold tr. destruct (Nat.eqb_spec j (c count)) as [->|]; reflexivity.
  - rewrite swap_cols, H by exact Hi. cbn [tau]. rewrite tr_tr. reflexivity.
Qed.

(** ** the pivot search *)
Lemma nr_search_spec N a ipiv :
  let '(big, r, c) := nr_search N a ipiv in
  0 < big -> (r < N)%nat /\ (c < N)%nat /\ ipiv r <> 1%nat /\ ipiv c = 0%nat /\ big = Rabs (a r c).
Proof.
  unfold nr_search.
  set (Q := fun s : R * nat * nat => 0 < fst (fst s) -> (snd (fst s) < N)%nat /\ (snd s < N)%nat /\ ipiv (snd (fst s)) <> 1%nat /\
     ipiv (snd s) = 0%nat /\ fst (fst s) = Rabs (a (snd (fst s)) (snd s))).
  enough (Q (nr_search N a ipiv)).
  { unfold nr_search in H. destruct (loop N _ _) as [[big r] c]. exact H. }
  unfold nr_search.
  assert (I : forall m, (m <= N)%nat -> Q (loop m (fun j s =>
    if negb (ipiv j =? 1)%nat then
      loop N (fun k s => if (ipiv k =? 0)%nat then let value := Rabs (a j k) in
          if Rleb (fst (fst s)) value then (value, j, k) else s else s) s
    else s) (0, 0%nat, 0%nat))); [|apply I; lia].
  induction m; intros Hm; [intros L; cbn in L; lra|]. rewrite loop_S. specialize (IHm ltac:(lia)).
  set (s0 := loop m _ _) in *. clearbody s0. destruct (Nat.eqb_spec (ipiv m) 1) as [|N1]; cbn [negb]; [exact IHm|].
  assert (J : forall p, (p <= N)%nat -> Q (loop p (fun k s => if (ipiv k =? 0)%nat then let value := Rabs (a m k) in
          if Rleb (fst (fst s)) value then (value, m, k) else s else s) s0)); [|apply J; lia].
  induction p; intros Hp; [exact IHm|]. rewrite loop_S. specialize (IHp ltac:(lia)). set (s1 := loop p _ _) in *. clearbody s1.
  destruct (Nat.eqb_spec (ipiv p) 0) as [Z|]; [|exact IHp]. cbn zeta. destruct (Rleb _ _); [|exact IHp].
  intros _. cbn [fst snd]. splits; try assumption; try reflexivity; lia.
Qed.

(** ** one column *)
Lemma nr_step N M c a b p : (c < N)%nat -> a c c <> 0 ->
  p = loop N (fun ll p => nr_reduce N M c ll p) (nr_divide N M c a b) ->
  (forall i j, (i < N)%nat -> (j < N)%nat -> fst p i j = stepM c (fun i => a i c) (fun i j => if (j =? c)%nat then kron i c else a i j) i j) /\
  (forall i j, (i < N)%nat -> (j < M)%nat -> snd p i j = stepM c (fun i => a i c) b i j).
Proof.
  intros Hc Hz ->. set (f := fun i => a i c). set (a0 := fun i j => if (j =? c)%nat then kron i c else a i j).
  set (p0 := nr_divide N M c a b).
  assert (N0 : (forall i j, (j < N)%nat -> fst p0 i j = if (i =? c)%nat then a0 c j / f c else a i j) /\
               (forall i j, (j < M)%nat -> snd p0 i j = if (i =? c)%nat then b c j / f c else b i j)).
  { unfold p0, nr_divide. cbn [fst snd]. split; intros i j Hj; apply Nat.ltb_lt in Hj as Bj.
    - rewrite (loop_row N (fun _ x => x * (1 / a c c))), Bj, Bool.andb_true_r. unfold wr2, a0, f, kron. rewrite Nat.eqb_refl.
      destruct (Nat.eqb_spec i c) as [->|]; cbn [andb]; [|reflexivity].
      destruct (Nat.eqb_spec j c); unfold Rdiv; ring.
    - rewrite (loop_row M (fun _ x => x * (1 / a c c))), Bj, Bool.andb_true_r. unfold f.
      destruct (Nat.eqb_spec i c) as [->|]; [|reflexivity]. unfold Rdiv. ring. }
  clearbody p0.
  assert (L : forall m, (m <= N)%nat -> let p := loop m (fun ll p => nr_reduce N M c ll p) p0 in
    (forall i j, (i < N)%nat -> (j < N)%nat -> fst p i j = if (i <? m)%nat then stepM c f a0 i j else fst p0 i j) /\
    (forall i j, (i < N)%nat -> (j < M)%nat -> snd p i j = if (i <? m)%nat then stepM c f b i j else snd p0 i j)).
  { induction m; intros Hm; cbn zeta; [split; reflexivity|]. rewrite loop_S. specialize (IHm ltac:(lia)). cbn zeta in IHm.
    set (p := loop m (fun ll p => nr_reduce N M c ll p) p0) in *. clearbody p. destruct IHm as [I1 I2], N0 as [N1 N2].
    unfold nr_reduce. destruct (Nat.eqb_spec m c) as [->|Nm].
    - split; intros i j Hi Hj.
      + rewrite I1 by assumption. destruct (Nat.ltb_spec i (S c)), (Nat.ltb_spec i c); try lia; try reflexivity.
        assert (i = c) by lia. subst i. rewrite N1 by assumption. unfold stepM. rewrite Nat.eqb_refl. reflexivity.
      + rewrite I2 by assumption. destruct (Nat.ltb_spec i (S c)), (Nat.ltb_spec i c); try lia; try reflexivity.
        assert (i = c) by lia. subst i. rewrite N2 by assumption. unfold stepM. rewrite Nat.eqb_refl. reflexivity.
    - assert (F : fst p m c = f m).
      { rewrite I1 by lia. rewrite Nat.ltb_irrefl, N1 by assumption. destruct (Nat.eqb_spec m c); [contradiction|reflexivity]. }
      assert (LE : forall q dum w x y, loop q (fun l w => wr2 w m l (w m l - w c l * dum)) w x y =
                 if ((x =? m) && (y <? q))%nat then w m y - dum * w c y else w x y).
      { intros q dum w x y. rewrite <- loop_elim by assumption.
        assert (E : forall q w, loop q (fun l w => wr2 w m l (w m l - w c l * dum)) w = loop q (fun l w => wr2 w m l (w m l - dum * w c l)) w).
        { clear. induction q; intros w; [reflexivity|]. rewrite !loop_S, IHq. f_equal. ring. }
        rewrite E. reflexivity. }
      cbn [fst snd]. rewrite F. split; intros i j Hi Hj; rewrite LE; apply Nat.ltb_lt in Hj as Bj; rewrite Bj, Bool.andb_true_r.
      + assert (RK : fst p c j = a0 c j / f c).
        { rewrite I1 by assumption. rewrite N1 by assumption. unfold stepM. rewrite Nat.eqb_refl. destruct (c <? m)%nat; reflexivity. }
        unfold wr2. rewrite Nat.eqb_refl. destruct (Nat.eqb_spec c m) as [|_]; [congruence|]. cbn [andb]. rewrite RK.
        destruct (Nat.eqb_spec i m) as [->|Ni].
        * destruct (Nat.ltb_spec m (S m)); [|lia]. unfold stepM. destruct (Nat.eqb_spec m c) as [|_]; [contradiction|].
          rewrite I1 by assumption. rewrite Nat.ltb_irrefl, N1 by assumption. destruct (Nat.eqb_spec m c) as [|_]; [contradiction|].
          unfold a0 at 2, kron. destruct (Nat.eqb_spec j c); [|reflexivity]. destruct (Nat.eqb_spec m c) as [|_]; [contradiction|reflexivity].
        * cbn [andb]. rewrite I1 by assumption. destruct (Nat.ltb_spec i (S m)), (Nat.ltb_spec i m); try lia; reflexivity.
      + assert (RK : snd p c j = b c j / f c).
        { rewrite I2 by assumption. rewrite N2 by assumption. unfold stepM. rewrite Nat.eqb_refl. destruct (c <? m)%nat; reflexivity. }
        rewrite RK. destruct (Nat.eqb_spec i m) as [->|Ni].
        * destruct (Nat.ltb_spec m (S m)); [|lia]. unfold stepM. destruct (Nat.eqb_spec m c) as [|_]; [contradiction|].
          rewrite I2 by assumption. rewrite Nat.ltb_irrefl, N2 by assumption. destruct (Nat.eqb_spec m c) as [|_]; [contradiction|]. reflexivity.
        * rewrite I2 by assumption. destruct (Nat.ltb_spec i (S m)), (Nat.ltb_spec i m); try lia; reflexivity. }
  destruct (L N ltac:(lia)) as [L1 L2]. split; intros i j Hi Hj.
  - rewrite L1 by assumption. destruct (Nat.ltb_spec i N); [reflexivity|lia].
  - rewrite L2 by assumption. destruct (Nat.ltb_spec i N); [reflexivity|lia].
Qed.

Fixpoint sumnat (n : nat) (f : nat -> nat) : nat := match n with O => O | S m => (sumnat m f + f m)%nat end.
Definition leftm (s : nr) : nat -> nat -> R := fun i j => if (nr_piv s j =? 1)%nat then kron i j else nr_a s i j.
Definition rightm (s : nr) : nat -> nat -> R := fun i j => if (nr_piv s j =? 1)%nat then nr_a s i j else kron i j.
Definition nr_ok (N M : nat) (A B : nat -> nat -> R) (m : nat) (s : nr) : Prop :=
  (forall j, (nr_piv s j <= 1)%nat) /\ sumnat N (nr_piv s) = m /\
  (forall l, (l < m)%nat -> (nr_r s l < N)%nat /\ (nr_c s l < N)%nat) /\
  exists V, inj N V /\
    (forall i, (i < N)%nat -> rowrel N A N (leftm s i) (V i)) /\
    (forall i, (i < N)%nat -> rowrel N B M (nr_b s i) (V i)) /\
    (forall i j, (i < N)%nat -> (j < N)%nat -> rightm s i j = V i (tau (nr_r s) (nr_c s) m j)).
Lemma sumnat_upd n f c : (c < n)%nat -> sumnat n (wrn f c (f c + 1)) = (sumnat n f + 1)%nat.
Proof.
  induction n; [lia|]. intros H. cbn [sumnat]. unfold wrn at 2. destruct (Nat.eqb_spec n c) as [->|].
  - assert (E : forall m, (m <= c)%nat -> sumnat m (wrn f c (f c + 1)) = sumnat m f).
    { clear. induction m; intros H; [reflexivity|]. cbn [sumnat]. rewrite IHm by lia. unfold wrn. destruct (Nat.eqb_spec m c); [lia|reflexivity]. }
    rewrite E by lia. lia.
  - rewrite IHn by lia. lia.
Qed.
Lemma nr_column_ok N M A B m s s' : nr_ok N M A B m s -> nr_column N M m s = Some s' -> nr_ok N M A B (S m) s'.
Proof.
  destruct s as [a b piv xr xc]. intros (P1 & P2 & P3 & V & H1 & H2 & H3 & H4). cbn [nr_a nr_b nr_piv nr_r nr_c] in *.
  unfold nr_column. cbn [nr_a nr_b nr_piv nr_r nr_c].
  pose proof (nr_search_spec N a piv) as S. destruct (nr_search N a piv) as [[big r] c].
  destruct (Rleb big ZERO_DETERMINANT) eqn:T; [discriminate|]. apply Rleb_false in T.
  assert (Z15 : 0 < ZERO_DETERMINANT) by (unfold ZERO_DETERMINANT; apply Rinv_0_lt_compat; lra).
  destruct (S ltac:(lra)) as (Hr & Hc & Pr & Pc & Eb). clear S.
  assert (Zp : a r c <> 0) by (intros E; rewrite E, Rabs_R0 in Eb; lra).
  set (q := if negb (r =? c)%nat then _ else _).
  assert (Q : (forall i j, fst q i j = swap_rows a r c i j) /\ (forall i j, snd q i j = swap_rows b r c i j)).
  { unfold q. destruct (Nat.eqb_spec r c) as [->|]; cbn [negb fst snd]; split; intros; try reflexivity; symmetry; apply swap_rows_same. }
  destruct q as [aS bS]. cbn [fst snd] in Q. destruct Q as [Q1 Q2].
  assert (Zs : aS c c <> 0).
  { rewrite Q1. unfold swap_rows. destruct (Nat.eqb_spec c r) as [<-|]; [exact Zp|]. rewrite Nat.eqb_refl. exact Zp. }
  intros E. injection E as <-.
  destruct (nr_step N M c aS bS _ Hc Zs eq_refl) as [G1 G2].
  set (p := loop N _ _) in *. clearbody p. destruct p as [a' b']. cbn [fst snd] in *.
  assert (P1' : forall j, (wrn piv c (piv c + 1) j <= 1)%nat).
  { intros j. unfold wrn. destruct (j =? c)%nat; [lia|apply P1]. }
  unfold nr_ok. cbn [nr_a nr_b nr_piv nr_r nr_c]. split; [exact P1'|]. split; [rewrite sumnat_upd by assumption; lia|].
  split.
  { intros l Hl. unfold wrn. destruct (Nat.eqb_spec l m); [split; assumption|]. apply P3. lia. }
  set (f := fun i => aS i c).
  exists (stepM c f (swap_rows V r c)).
  (* the swapped left and right matrices *)
  assert (LS : forall i j, (i < N)%nat -> (j < N)%nat -> swap_rows (leftm (mkNR a b piv xr xc)) r c i j = if (piv j =? 1)%nat then kron i j else aS i j).
  { intros i j Hi Hj. unfold leftm. cbn [nr_a nr_piv]. rewrite Q1. unfold swap_rows, kron.
    destruct (Nat.eqb_spec (piv j) 1) as [Ej|]; [|reflexivity].
    destruct (Nat.eqb_spec i r) as [->|].
    - destruct (Nat.eqb_spec c j) as [->|]; [lia|]. destruct (Nat.eqb_spec r j) as [->|]; [contradiction|reflexivity].
    - destruct (Nat.eqb_spec i c) as [->|]; [|reflexivity].
      destruct (Nat.eqb_spec r j) as [->|]; [contradiction|]. destruct (Nat.eqb_spec c j) as [->|]; [lia|reflexivity]. }
  splits.
  - apply inj_step; [exact Hc|exact Zs|]. apply inj_swap; assumption.
  - intros i Hi. apply (rowrel_ext N A N (stepM c f (swap_rows (leftm (mkNR a b piv xr xc)) r c) i) _ (stepM c f (swap_rows V r c) i)).
    2: reflexivity.
    2: { apply step_rel; [|exact Hc|exact Hi]. apply swap_rel; assumption. }
    intros j Hj. unfold leftm at 2. cbn [nr_a nr_piv]. unfold stepM. rewrite !LS by assumption. unfold wrn.
    destruct (Nat.eqb_spec j c) as [->|Nj].
    + rewrite Pc. cbn [Nat.add Nat.eqb]. unfold kron. fold (f c). fold (f i).
      destruct (Nat.eqb_spec i c) as [->|]; unfold f; field; exact Zs.
    + destruct (Nat.eqb_spec (piv j) 1).
      * unfold kron. destruct (Nat.eqb_spec c j) as [|_]; [congruence|]. destruct (Nat.eqb_spec i c) as [->|].
        -- destruct (Nat.eqb_spec c j) as [|_]; [congruence|]. field. exact Zs.
        -- field. exact Zs.
      * rewrite (G1 i j Hi Hj). unfold stepM. destruct (Nat.eqb_spec j c) as [|_]; [contradiction|]. reflexivity.
  - intros i Hi. apply (rowrel_ext N B M (stepM c f (swap_rows b r c) i) _ (stepM c f (swap_rows V r c) i)).
    2: reflexivity.
    2: { apply step_rel; [|exact Hc|exact Hi]. apply swap_rel; assumption. }
    intros j Hj. rewrite (G2 i j Hi Hj). unfold stepM. rewrite !Q2. reflexivity.
  - intros i j Hi Hj. cbn [tau]. replace (wrn xr m r m) with r by (unfold wrn; rewrite Nat.eqb_refl; reflexivity).
    replace (wrn xc m c m) with c by (unfold wrn; rewrite Nat.eqb_refl; reflexivity).
    rewrite (tau_ext _ _ xr xc) by (intros l Hl; unfold wrn; destruct (Nat.eqb_spec l m); [lia|split; reflexivity]).
    assert (RS : forall i j, (i < N)%nat -> (j < N)%nat ->
       swap_rows V r c i (tau xr xc m (tr r c j)) = swap_rows (rightm (mkNR a b piv xr xc)) r c i (tr r c j)).
    { clear i j Hi Hj. intros i j Hi Hj. pose proof (tr_lt N r c j Hr Hc Hj) as Ht. unfold swap_rows.
      destruct (i =? r)%nat; [symmetry; apply H4; assumption|]. destruct (i =? c)%nat; symmetry; apply H4; assumption. }
    unfold stepM. rewrite !RS by assumption.
    assert (RV : forall i, (i < N)%nat -> swap_rows (rightm (mkNR a b piv xr xc)) r c i (tr r c j) = if (piv j =? 1)%nat then aS i j else kron i j).
    { clear i Hi. intros i Hi. unfold swap_rows, rightm. cbn [nr_a nr_piv]. rewrite Q1. unfold swap_rows.
      unfold tr. destruct (Nat.eqb_spec j r) as [->|Nr].
      - destruct (Nat.eqb_spec (piv c) 1); [lia|]. destruct (Nat.eqb_spec (piv r) 1); [contradiction|]. unfold kron. rewrite Nat.eqb_refl.
        destruct (Nat.eqb_spec i r) as [->|].
        + destruct (Nat.eqb_spec r r); [reflexivity|contradiction].
        + destruct (Nat.eqb_spec i c) as [->|]; [destruct (Nat.eqb_spec r c); congruence|reflexivity].
      - destruct (Nat.eqb_spec j c) as [->|Nc].
        + destruct (Nat.eqb_spec (piv c) 1); [lia|]. destruct (Nat.eqb_spec (piv r) 1); [contradiction|]. unfold kron.
          destruct (Nat.eqb_spec i r) as [->|]; [|destruct (Nat.eqb_spec i c) as [->|]; [|reflexivity]].
          * destruct (Nat.eqb_spec c r), (Nat.eqb_spec r c); congruence.
          * rewrite Nat.eqb_refl. reflexivity.
        + destruct (Nat.eqb_spec (piv j) 1); [reflexivity|]. unfold kron.
          destruct (Nat.eqb_spec i r) as [->|]; [destruct (Nat.eqb_spec c j), (Nat.eqb_spec r j); congruence|].
          destruct (Nat.eqb_spec i c) as [->|]; [destruct (Nat.eqb_spec c j), (Nat.eqb_spec r j); congruence|reflexivity]. }
    rewrite !RV by assumption. unfold rightm. cbn [nr_a nr_piv]. unfold wrn.
    destruct (Nat.eqb_spec j c) as [->|Nj].
    + rewrite Pc. cbn [Nat.add Nat.eqb]. rewrite (G1 i c Hi Hc). unfold stepM. rewrite Nat.eqb_refl. reflexivity.
    + destruct (Nat.eqb_spec (piv j) 1).
      * rewrite (G1 i j Hi Hj). unfold stepM. destruct (Nat.eqb_spec j c) as [|_]; [contradiction|]. reflexivity.
      * unfold kron. destruct (Nat.eqb_spec i c) as [->|]; (destruct (Nat.eqb_spec c j) as [|_]; [congruence|]).
        -- field. exact Zs.
        -- field. exact Zs.
Qed.
Lemma all_reduced N f : (forall j, (f j <= 1)%nat) -> sumnat N f = N -> forall j, (j < N)%nat -> f j = 1%nat.
Proof.
  intros H. assert (U : forall m, (sumnat m f <= m)%nat) by (induction m; cbn [sumnat]; [lia|specialize (H m); lia]).
  induction N; intros E j Hj; [lia|]. cbn [sumnat] in E. pose proof (U N). pose proof (H N).
  destruct (Nat.eq_dec j N) as [->|]; [lia|]. apply IHN; lia.
Qed.
Lemma nr_columns_ok N M A B : forall count m s x y, (m + count = N)%nat -> nr_ok N M A B m s ->
  nr_columns N M count m s = (x, y, Ok tt) ->
  inverse_of N x A /\ forall i j, (i < N)%nat -> (j < M)%nat -> y i j = summ N (fun l => x i l * B l j).
Proof.
  induction count; intros m s x y Hc HI; cbn [nr_columns].
  - intros E. assert (m = N) by lia. subst m. injection E as <- <-. destruct HI as (P1 & P2 & P3 & V & H1 & H2 & H3 & H4).
    pose proof (all_reduced N _ P1 P2) as Pall.
    assert (X : forall i j, (i < N)%nat -> (j < N)%nat -> nr_unscramble N N (nr_r s) (nr_c s) (nr_a s) i j = V i j).
    { assert (K : exists V', (forall i j, (i < N)%nat -> nr_a s i j = V' i (tau (nr_r s) (nr_c s) N j)) /\ forall i j, (i < N)%nat -> (j < N)%nat -> V' i j = V i j).
      { (* outside the matrix V is chosen freely; tau is a bijection that maps the inside to the inside *)
        exists (fun i j => nr_a s i (fold_left (fun j l => tr (nr_r s l) (nr_c s l) j) (seq 0 N) j)).
        assert (B1 : forall m j, fold_left (fun j l => tr (nr_r s l) (nr_c s l) j) (seq 0 m) (tau (nr_r s) (nr_c s) m j) = j).
        { clear. induction m; intros j; [reflexivity|]. rewrite seq_S, fold_left_app. cbn [tau fold_left Nat.add]. rewrite IHm. apply tr_tr. }
        assert (B2 : forall m j, tau (nr_r s) (nr_c s) m (fold_left (fun j l => tr (nr_r s l) (nr_c s l) j) (seq 0 m) j) = j).
        { clear. induction m; intros j; [reflexivity|]. rewrite seq_S, fold_left_app. cbn [tau fold_left Nat.add]. rewrite tr_tr. apply IHm. }
        assert (B3 : forall m, (m <= N)%nat -> forall j, (j < N)%nat -> (fold_left (fun j l => tr (nr_r s l) (nr_c s l) j) (seq 0 m) j < N)%nat).
        { induction m; intros Hm j Hj; [exact Hj|]. rewrite seq_S, fold_left_app. cbn [fold_left Nat.add].
          destruct (P3 m ltac:(lia)). apply tr_lt; [assumption|assumption|]. apply IHm; [lia|exact Hj]. }
        split; intros i j Hi.
        - rewrite B1. reflexivity.
        - intros Hj. pose proof (B3 N ltac:(lia) j Hj) as Hf.
          specialize (H4 i _ Hi Hf). unfold rightm in H4. rewrite Pall in H4 by exact Hf. cbn [Nat.eqb] in H4. rewrite H4, B2. reflexivity. }
      destruct K as (V' & K1 & K2). intros i j Hi Hj. rewrite (unscramble N _ _ N _ V' K1) by exact Hi. apply K2; assumption. }
    split.
    + apply left_inverse.
      * apply (inj_ext N V); [intros; symmetry; apply X; assumption|exact H1].
      * intros i j Hi Hj. rewrite (summ_ext_eq _ _ (fun l => V i l * A l j)) by (intros; rewrite X by assumption; reflexivity).
        rewrite <- (H2 i Hi j Hj). unfold leftm. rewrite Pall by exact Hj. reflexivity.
    + intros i j Hi Hj. rewrite (summ_ext_eq _ _ (fun l => V i l * B l j)) by (intros; rewrite X by assumption; reflexivity).
      apply (H3 i Hi j Hj).
  - destruct (nr_column N M m s) as [s'|] eqn:E; [|unfold singular; discriminate]. intros F.
    apply (IHcount (S m) s'); [lia|apply (nr_column_ok N M A B m s); assumption|exact F].
Qed.
(** ** C75 *)
Theorem C75_solve N M a b x y : num_recipes_gaussj_sol N M a b = (x, y, Ok tt) ->
  inverse_of N x a /\
  (forall i j, (i < N)%nat -> (j < M)%nat -> summ N (fun l => a i l * y l j) = b i j) /\
  (forall i j, (i < N)%nat -> (j < M)%nat -> y i j = summ N (fun l => x i l * b l j)).
Proof.
  unfold num_recipes_gaussj_sol. intros E. apply (nr_columns_ok N M a b) in E; [|lia|].
  - destruct E as [I Y]. splits; [exact I| |exact Y].
    intros i j Hi Hj.
    rewrite (summ_ext_eq _ _ (fun l => summ N (fun m => (a i l * x l m) * b m j))).
    2: { intros l Hl. rewrite Y by assumption. rewrite <- summ_scal. apply summ_ext_eq. intros. ring. }
    rewrite summ_swap, (summ_ext_eq _ _ (fun m => kron i m * b m j)).
    + exact (summ_kron_l N i (fun m => b m j) Hi).
    + intros m Hm. rewrite <- (proj2 (I i m Hi Hm)). rewrite Rmult_comm, <- summ_scal. apply summ_ext_eq. intros. ring.
  - unfold nr_ok. cbn [nr_a nr_b nr_piv nr_r nr_c]. splits.
    + intros; lia.
    + clear. induction N; [reflexivity|]. cbn [sumnat]. rewrite IHN. reflexivity.
    + intros; lia.
    + exists kron. splits.
      * apply inj_one.
      * intros i Hi j Hj. unfold leftm. cbn [nr_piv nr_a Nat.eqb]. symmetry. exact (summ_kron_l N i (fun m => a m j) Hi).
      * intros i Hi j Hj. symmetry. exact (summ_kron_l N i (fun m => b m j) Hi).
      * intros i j Hi Hj. reflexivity.
Qed.
Theorem C75_inverse N a x : num_recipes_gaussj_inv N a = (x, Ok tt) -> inverse_of N x a.
Proof.
  unfold num_recipes_gaussj_inv. destruct (num_recipes_gaussj_sol N 0 a (fun _ _ => 0)) as [[x' y] r] eqn:E.
  intros F. injection F as -> ->. apply C75_solve in E. apply E.
Qed.
Theorem C75_total N M a b : exists x y r, num_recipes_gaussj_sol N M a b = (x, y, r) /\ (r = Ok tt \/ r = singular).
Proof.
  unfold num_recipes_gaussj_sol.
  assert (G : forall count m s, exists x y r, nr_columns N M count m s = (x, y, r) /\ (r = Ok tt \/ r = singular)).
  { induction count; intros m s; cbn [nr_columns]; [do 3 eexists; split; [reflexivity|auto]|].
    destruct (nr_column N M m s); [apply IHcount|]. do 3 eexists; split; [reflexivity|auto]. }
  apply G.
Qed.
(** a matrix with a null vector is always reported *)
Theorem C75_singular N M a b v p : (p < N)%nat -> v p <> 0 ->
  (forall i, (i < N)%nat -> summ N (fun l => a i l * v l) = 0) ->
  exists x y, num_recipes_gaussj_sol N M a b = (x, y, singular).
Proof.
  intros Hp Hv H. destruct (C75_total N M a b) as (x & y & r & E & [->| ->]); [|eauto].
  exfalso. apply Hv. destruct (C75_solve _ _ _ _ _ _ E) as (I & _ & _).
  rewrite <- (summ_kron_l N p v Hp).
  rewrite (summ_ext_eq _ _ (fun l => summ N (fun m => x p m * (a m l * v l)))).
  2: { intros l Hl. rewrite <- (proj1 (I p l Hp Hl)). rewrite Rmult_comm, <- summ_scal. apply summ_ext_eq. intros. ring. }
  rewrite summ_swap, (summ_ext_eq _ _ (fun _ => 0)); [apply summ_zero|]. intros m Hm. rewrite summ_scal, H by assumption. ring.
Qed.
(** the linear solver: the solution replaces b, the inverse replaces a; on an
    error b is untouched *)
Theorem C75_solve_lin_sys N b a x ai r : small_solve_lin_sys N b a = (x, ai, r) ->
  (r = Ok tt /\ inverse_of N ai a /\ forall i, (i < N)%nat -> summ N (fun l => a i l * x l) = b i) \/
  (r = singular /\ x = b).
Proof.
  unfold small_solve_lin_sys. set (bb := loop N _ _).
  assert (BB : forall i, (i < N)%nat -> bb i 0%nat = b i).
  { intros i Hi. unfold bb. assert (L : forall m, loop m (fun i bb => wr2 bb i 0 (b i)) (fun _ _ => 0) i 0%nat = if (i <? m)%nat then b i else 0).
    { induction m; [reflexivity|]. rewrite loop_S. unfold wr2 at 1. rewrite IHm. cbn [Nat.eqb]. rewrite Bool.andb_true_r.
      destruct (Nat.eqb_spec i m) as [->|].
      - destruct (Nat.ltb_spec m (S m)); [reflexivity|lia].
      - destruct (Nat.ltb_spec i (S m)), (Nat.ltb_spec i m); try lia; reflexivity. }
    rewrite L. destruct (Nat.ltb_spec i N); [reflexivity|lia]. }
  destruct (C75_total N 1 a bb) as (x' & y & r' & E & [->| ->]); rewrite E; intros F; injection F as <- <- <-.
  - left. destruct (C75_solve _ _ _ _ _ _ E) as (I & S & _). splits; [reflexivity|exact I|].
    intros i Hi. rewrite <- (BB i Hi), <- (S i 0%nat Hi ltac:(lia)). apply summ_ext_eq. intros l Hl.
    rewrite (loop_wr N (fun i _ => y i 0%nat)). destruct (Nat.ltb_spec l N); [reflexivity|lia].
  - right. split; reflexivity.
Qed.
(** finding: on an error the matrix has been overwritten by a partly reduced one *)
Lemma nr_search_2 a : a 0%nat 0%nat = 1 -> a 0%nat 1%nat = 1 -> a 1%nat 0%nat = 1 -> a 1%nat 1%nat = 1 ->
  nr_search 2 a (fun _ => 0%nat) = (1, 1%nat, 1%nat).
Proof.
  intros A B C D. unfold nr_search, loop. cbn [seq fold_left Nat.eqb negb fst snd]. rewrite A, B, C, D, Rabs_R1.
  replace (Rleb 0 1) with true by (symmetry; apply Rleb_true; lra). cbn [fst snd].
  replace (Rleb 1 1) with true by (symmetry; apply Rleb_true; lra). cbn [fst snd].
  replace (Rleb 1 1) with true by (symmetry; apply Rleb_true; lra). cbn [fst snd].
  replace (Rleb 1 1) with true by (symmetry; apply Rleb_true; lra). reflexivity.
Qed.
Theorem C75_error_overwrites_refuted : exists a x y,
  num_recipes_gaussj_sol 2 0 a (fun _ _ => 0) = (x, y, singular) /\ a 0%nat 0%nat = 1 /\ x 0%nat 0%nat = 0.
Proof.
  exists (fun _ _ => 1). unfold num_recipes_gaussj_sol. cbn [nr_columns].
  unfold nr_column at 1. cbn [nr_a nr_b nr_piv nr_r nr_c]. rewrite nr_search_2 by reflexivity.
  assert (Z15 : ZERO_DETERMINANT < 1) by (unfold ZERO_DETERMINANT; lra).
  assert (Zp : 0 < ZERO_DETERMINANT) by (unfold ZERO_DETERMINANT; apply Rinv_0_lt_compat; lra).
  replace (Rleb 1 ZERO_DETERMINANT) with false by (symmetry; apply Rleb_false; exact Z15). cbn [Nat.eqb negb].
  destruct (nr_step 2 0 1 (fun _ _ => 1) (fun _ _ => 0) _ ltac:(lia) ltac:(cbn; lra) eq_refl) as [G _].
  set (p := loop 2 _ _) in *. clearbody p. destruct p as [a' b']. cbn [fst snd] in *.
  set (s := mkNR a' b' _ _ _).
  assert (E : nr_column 2 0 1 s = None).
  { unfold nr_column, s. cbn [nr_a nr_b nr_piv nr_r nr_c].
    assert (A0 : a' 0%nat 0%nat = 0) by (rewrite G by lia; unfold stepM, kron; cbn [Nat.eqb]; field).
    unfold nr_search, loop. cbn [seq fold_left]. unfold wrn. cbn [Nat.add Nat.eqb negb fst snd]. rewrite A0, Rabs_R0.
    replace (Rleb 0 0) with true by (symmetry; apply Rleb_true; lra).
    replace (Rleb 0 ZERO_DETERMINANT) with true by (symmetry; apply Rleb_true; lra). reflexivity. }
  rewrite E. exists a', b'. splits; [reflexivity|reflexivity|].
  rewrite G by lia. unfold stepM, kron. cbn [Nat.eqb]. field.
Qed.
(** non-vacuity: two times the identity of any size above 0 has no null vector; the solver succeeds on the 1 x 1 system 2 x = 6 *)
Example C75_example : exists x ai, small_solve_lin_sys 1 (fun _ => 6) (fun _ _ => 2) = (x, ai, Ok tt) /\ x 0%nat = 3.
Proof.
  destruct (small_solve_lin_sys 1 (fun _ => 6) (fun _ _ => 2)) as [[x ai] r] eqn:E. exists x, ai.
  pose proof (C75_solve_lin_sys _ _ _ _ _ _ E) as [(-> & _ & H)|(-> & _)].
  - split; [reflexivity|]. specialize (H 0%nat ltac:(lia)). cbn in H. lra.
  - exfalso. unfold small_solve_lin_sys, num_recipes_gaussj_sol in E. cbn [nr_columns] in E.
    unfold nr_column in E. cbn [nr_a nr_b nr_piv nr_r nr_c] in E.
    assert (S : nr_search 1 (fun _ _ => 2) (fun _ => 0%nat) = (2, 0%nat, 0%nat)).
    { unfold nr_search, loop. cbn [seq fold_left Nat.eqb negb fst snd]. rewrite Rabs_pos_eq by lra.
      replace (Rleb 0 2) with true by (symmetry; apply Rleb_true; lra). reflexivity. }
    rewrite S in E. replace (Rleb 2 ZERO_DETERMINANT) with false in E; [|symmetry; apply Rleb_false; unfold ZERO_DETERMINANT; lra].
    cbn [Nat.eqb negb] in E. discriminate.
Qed.
Print Assumptions C75_solve.
Print Assumptions C75_solve_lin_sys.
