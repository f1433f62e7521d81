(** C14 (dense storage layout), C15 (LAPACK band storage). *)
From Verif Require Import Base Dense_Model Dense_Proofs LabMat_Model.

Set Default Proof Using "Type".

(** ** nested loops that write cells *)

Lemma fill1 {A} (z : A) lo hi (pos : nat -> nat) (f : nat -> A) (body : nat -> list A -> res (list A)) (d0 : list A) :
  lo <= hi ->
  (forall j, lo <= j < hi -> pos j < length d0) ->
  (forall j j', lo <= j < hi -> lo <= j' < hi -> pos j = pos j' -> j = j') ->
  (forall j d, lo <= j < hi -> length d = length d0 -> body j d = vset d (pos j) (f j)) ->
  exists d, for_range lo hi body d0 = Ok d /\ length d = length d0 /\
    (forall j, lo <= j < hi -> nth (pos j) d z = f j) /\
    (forall p, (forall j, lo <= j < hi -> pos j <> p) -> nth p d z = nth p d0 z).
Proof.
  intros Hle Hpos Hinj Hbody.
  destruct (for_range_inv (fun k d => length d = length d0 /\
    (forall j, lo <= j < k -> nth (pos j) d z = f j) /\
    (forall p, (forall j, lo <= j < k -> pos j <> p) -> nth p d z = nth p d0 z)) body lo hi d0) as (d & E & H1 & H2 & H3); auto.
  - split; [reflexivity|]. split; [intros; lia|]. auto.
  - intros j d Hj (HL & HV & HF). rewrite Hbody by auto. rewrite vset_ok by (rewrite HL; auto).
    eexists. split; [reflexivity|]. rewrite upd_length. split; [auto|]. split.
    + intros j' Hj'. rewrite nth_upd by (rewrite HL; auto).
      destruct (Nat.eqb_spec (pos j') (pos j)) as [Q|Q]; [apply Hinj in Q; try lia; now subst|].
      apply HV. destruct (Nat.eq_dec j' j); [subst; congruence|lia].
    + intros p Hp. rewrite nth_upd by (rewrite HL; auto).
      destruct (Nat.eqb_spec p (pos j)) as [Q|Q]; [exfalso; apply (Hp j); [lia|auto]|].
      apply HF. intros j' Hj'. apply Hp. lia.
  - exists d. auto.
Qed.

Lemma fill2 {A} (z : A) m (lo hi : nat -> nat) (pos : nat -> nat -> nat) (f : nat -> nat -> A)
  (body : nat -> nat -> list A -> res (list A)) (d0 : list A) :
  (forall i, i < m -> lo i <= hi i) ->
  (forall i j, i < m -> lo i <= j < hi i -> pos i j < length d0) ->
  (forall i j i' j', i < m -> lo i <= j < hi i -> i' < m -> lo i' <= j' < hi i' ->
     pos i j = pos i' j' -> i = i' /\ j = j') ->
  (forall i j d, i < m -> lo i <= j < hi i -> length d = length d0 -> body i j d = vset d (pos i j) (f i j)) ->
  exists d, for_range 0 m (fun i d => for_range (lo i) (hi i) (body i) d) d0 = Ok d /\ length d = length d0 /\
    (forall i j, i < m -> lo i <= j < hi i -> nth (pos i j) d z = f i j) /\
    (forall p, (forall i j, i < m -> lo i <= j < hi i -> pos i j <> p) -> nth p d z = nth p d0 z).
Proof.
  intros Hle Hpos Hinj Hbody.
  destruct (for_range_inv (fun k d => length d = length d0 /\
    (forall i j, i < k -> lo i <= j < hi i -> nth (pos i j) d z = f i j) /\
    (forall p, (forall i j, i < k -> lo i <= j < hi i -> pos i j <> p) -> nth p d z = nth p d0 z))
    (fun i d => for_range (lo i) (hi i) (body i) d) 0 m d0) as (d & E & H1 & H2 & H3).
  - lia.
  - split; [reflexivity|]. split; [intros; lia|]. auto.
  - intros i d [_ Hi] (HL & HV & HF).
    destruct (fill1 z (lo i) (hi i) (pos i) (f i) (body i) d) as (d' & E & K1 & K2 & K3).
    + auto.
    + intros. rewrite HL. auto.
    + intros j j' Hj Hj' Q. apply (Hinj i j i j'); auto.
    + intros. apply Hbody; auto. lia.
    + exists d'. split; [exact E|]. split; [lia|]. split.
      * intros i' j' Hi' Hj'. destruct (Nat.eq_dec i' i) as [->|N]; [now apply K2|].
        rewrite K3; [apply HV; auto; lia|]. intros j Hj Q. apply Hinj in Q; try lia; auto.
      * intros p Hp. rewrite K3; [apply HF; intros; apply Hp; auto|]. intros; apply Hp; auto.
  - exists d. splits; auto.
Qed.

Section Thm.
Variable T : Type.
Variables zero one : T.
Variables add mul : T -> T -> T.
Set Default Proof Using "zero".

(** [a] is an [m]×[n] matrix whose observable entry (i,j) is [f i j] *)
Definition is_matrix (a : dmat T) (m n : nat) (f : nat -> nat -> T) : Prop :=
  d_nrow a = m /\ d_ncol a = n /\ length (d_data a) = m * n /\
  forall i j, i < m -> j < n -> d_get a i j = Ok (f i j).

Lemma is_matrix_dval a m n f :
  d_nrow a = m -> d_ncol a = n -> length (d_data a) = m * n ->
  (forall i j, i < m -> j < n -> nth (i + j * m) (d_data a) zero = f i j) -> is_matrix a m n f.
Proof.
  intros <- <- W H. unfold is_matrix. splits; auto.
  intros i j Hi Hj. rewrite (d_get_val _ zero) by auto. unfold dval. now rewrite H.
Qed.

Lemma nth_zeros k p : nth p (repeat zero k) zero = zero.
Proof. apply nth_repeat_d. Qed.

Theorem C14_new : forall m n, is_matrix (d_new T zero m n) m n (fun _ _ => zero).
Proof.
  intros m n. apply is_matrix_dval; auto; cbn.
  - apply repeat_length.
  - intros. apply nth_zeros.
Qed.

Theorem C14_filled : forall m n v, is_matrix (d_filled T m n v) m n (fun _ _ => v).
Proof.
  intros m n v. apply is_matrix_dval; auto; cbn.
  - apply repeat_length.
  - intros. apply nth_repeat_lt. now apply idx_lt.
Qed.

Theorem C14_initialized : forall m n f, is_matrix (d_initialized T m n f) m n f.
Proof.
  intros m n f. apply is_matrix_dval; auto; cbn [d_initialized d_data].
  - now rewrite map_length, seq_length.
  - intros i j Hi Hj. assert (L := idx_lt i j m n Hi Hj).
    rewrite nth_indep with (d' := f (0 mod m) (0 / m)) by (rewrite map_length, seq_length; auto).
    rewrite (map_nth (fun p => f (p mod m) (p / m)) (seq 0 (m * n)) 0).
    rewrite seq_nth by auto. cbn [plus].
    rewrite Nat.mod_add, Nat.mod_small, Nat.div_add, Nat.div_small by lia. now rewrite Nat.add_0_l.
Qed.

Theorem C14_identity : forall m, exists a, d_identity T zero one m = Ok a /\
  is_matrix a m m (fun i j => if i =? j then one else zero).
Proof.
  intros m. unfold d_identity.
  destruct (fill1 zero 0 m (fun i => i + i * m) (fun _ => one) (fun i data => vset data (i + i * m) one)
    (repeat zero (m * m))) as (d & E & HL & H1 & H2).
  - lia.
  - intros. rewrite repeat_length. apply idx_lt; lia.
  - intros j j' Hj Hj' Q. apply idx_inj in Q; lia.
  - auto.
  - rewrite E. cbn [bind]. eexists. split; [reflexivity|].
    rewrite repeat_length in HL. apply is_matrix_dval; auto. cbn [d_data].
    intros i j Hi Hj. destruct (Nat.eqb_spec i j) as [->|N].
    + apply H1. lia.
    + rewrite H2; [apply nth_zeros|]. intros k Hk Q. apply idx_inj in Q; lia.
Qed.

Theorem C14_diagonal : forall v, exists a, d_diagonal T zero v = Ok a /\
  is_matrix a (length v) (length v) (fun i j => if i =? j then nth i v zero else zero).
Proof.
  intros v. unfold d_diagonal. set (m := length v).
  destruct (fill1 zero 0 m (fun i => i + i * m) (fun i => nth i v zero)
    (fun i data => x <- vget v i ;; vset data (i + i * m) x) (repeat zero (m * m))) as (d & E & HL & H1 & H2).
  - lia.
  - intros. rewrite repeat_length. apply idx_lt; lia.
  - intros j j' Hj Hj' Q. apply idx_inj in Q; lia.
  - intros j d Hj _. rewrite (vget_ok _ _ zero) by (unfold m in *; lia). reflexivity.
  - rewrite E. cbn [bind]. eexists. split; [reflexivity|].
    rewrite repeat_length in HL. apply is_matrix_dval; auto. cbn [d_data].
    intros i j Hi Hj. destruct (Nat.eqb_spec i j) as [->|N].
    + apply H1. lia.
    + rewrite H2; [apply nth_zeros|]. intros k Hk Q. apply idx_inj in Q; lia.
Qed.

(** `from`: an array without columns has no rows either *)
Theorem C14_from : forall m n f, exists a, d_from T zero m n f = Ok a /\
  is_matrix a (if n =? 0 then 0 else m) n f.
Proof.
  intros m0 n f. unfold d_from. set (m := if n =? 0 then 0 else m0).
  destruct (fill2 zero m (fun _ => 0) (fun _ => n) (fun i j => i + j * m) f
    (fun i j data => vset data (i + j * m) (f i j)) (repeat zero (m * n))) as (d & E & HL & H1 & H2).
  - lia.
  - intros. rewrite repeat_length. apply idx_lt; lia.
  - intros i j i' j' Hi Hj Hi' Hj' Q. apply idx_inj in Q; lia.
  - auto.
  - rewrite E. cbn [bind]. eexists. split; [reflexivity|].
    rewrite repeat_length in HL. apply is_matrix_dval; auto. cbn [d_data].
    intros i j Hi Hj. apply H1; lia.
Qed.

Theorem C14_from_lower : forall n f, exists a, d_from_lower T zero n n f = Ok a /\
  is_matrix a n n (fun i j => if j <=? i then f i j else zero).
Proof.
  intros n f. unfold d_from_lower.
  replace (if n =? 0 then 0 else n) with n by (destruct (Nat.eqb_spec n 0); auto).
  rewrite Nat.eqb_refl. cbn [negb].
  destruct (fill2 zero n (fun _ => 0) (fun i => i + 1) (fun i j => i + j * n) f
    (fun i j data => vset data (i + j * n) (f i j)) (repeat zero (n * n))) as (d & E & HL & H1 & H2).
  - lia.
  - intros. rewrite repeat_length. apply idx_lt; lia.
  - intros i j i' j' Hi Hj Hi' Hj' Q. apply idx_inj in Q; lia.
  - auto.
  - rewrite E. cbn [bind]. eexists. split; [reflexivity|].
    rewrite repeat_length in HL. apply is_matrix_dval; auto. cbn [d_data].
    intros i j Hi Hj. destruct (Nat.leb_spec j i).
    + apply H1; lia.
    + rewrite H2; [apply nth_zeros|]. intros i' j' ? ? Q. apply idx_inj in Q; lia.
Qed.

Theorem C14_from_upper : forall n f, exists a, d_from_upper T zero n n f = Ok a /\
  is_matrix a n n (fun i j => if i <=? j then f i j else zero).
Proof.
  intros n f. unfold d_from_upper.
  replace (if n =? 0 then 0 else n) with n by (destruct (Nat.eqb_spec n 0); auto).
  rewrite Nat.eqb_refl. cbn [negb].
  destruct (fill2 zero n (fun i => i) (fun _ => n) (fun i j => i + j * n) f
    (fun i j data => vset data (i + j * n) (f i j)) (repeat zero (n * n))) as (d & E & HL & H1 & H2).
  - lia.
  - intros. rewrite repeat_length. apply idx_lt; lia.
  - intros i j i' j' Hi Hj Hi' Hj' Q. apply idx_inj in Q; lia.
  - auto.
  - rewrite E. cbn [bind]. eexists. split; [reflexivity|].
    rewrite repeat_length in HL. apply is_matrix_dval; auto. cbn [d_data].
    intros i j Hi Hj. destruct (Nat.leb_spec i j).
    + apply H1; lia.
    + rewrite H2; [apply nth_zeros|]. intros i' j' ? ? Q. apply idx_inj in Q; lia.
Qed.

(** non-square triangles are refused *)
Theorem C14_triangle_not_square : forall m n f, n <> 0 -> m <> n ->
  (exists e, d_from_lower T zero m n f = Err e) /\ (exists e, d_from_upper T zero m n f = Err e).
Proof.
  intros m n f H0 H. unfold d_from_lower, d_from_upper.
  destruct (Nat.eqb_spec n 0); [lia|]. destruct (Nat.eqb_spec m n); [lia|]. cbn. eauto.
Qed.

(** ** rows, columns, transpose *)

Theorem C14_extract_row : forall a m n f i, is_matrix a m n f -> i < m ->
  d_extract_row T zero a i = Ok (map (fun j => f i j) (seq 0 n)).
Proof.
  intros a m n f i (Hm & Hn & HL & HG) Hi. unfold d_extract_row. rewrite Hm, Hn.
  destruct (fill1 zero 0 n (fun j => j) (fun j => f i j)
    (fun j r => x <- vget (d_data a) (i + j * m) ;; vset r j x) (repeat zero n)) as (d & E & HD & H1 & _).
  - lia.
  - intros. rewrite repeat_length. lia.
  - auto.
  - intros j d Hj _. specialize (HG i j Hi ltac:(lia)). unfold d_get in HG. rewrite Hm in HG. now rewrite HG.
  - rewrite E. f_equal. rewrite repeat_length in HD. apply (nth_ext_d _ _ zero).
    + now rewrite map_length, seq_length.
    + intros j Hj. rewrite H1 by lia.
      rewrite nth_indep with (d' := f i 0) by (rewrite map_length, seq_length; lia).
      rewrite (map_nth (fun j => f i j)), seq_nth by lia. reflexivity.
Qed.

Theorem C14_extract_column : forall a m n f j, is_matrix a m n f -> j < n ->
  d_extract_column T zero a j = Ok (map (fun i => f i j) (seq 0 m)).
Proof.
  intros a m n f j (Hm & Hn & HL & HG) Hj. unfold d_extract_column. rewrite Hm.
  destruct (fill1 zero 0 m (fun j => j) (fun i => f i j)
    (fun i r => x <- vget (d_data a) (i + j * m) ;; vset r i x) (repeat zero m)) as (d & E & HD & H1 & _).
  - lia.
  - intros. rewrite repeat_length. lia.
  - auto.
  - intros i d Hi _. specialize (HG i j ltac:(lia) Hj). unfold d_get in HG. rewrite Hm in HG. now rewrite HG.
  - rewrite E. f_equal. rewrite repeat_length in HD. apply (nth_ext_d _ _ zero).
    + now rewrite map_length, seq_length.
    + intros i Hi. rewrite H1 by lia.
      rewrite nth_indep with (d' := f 0 j) by (rewrite map_length, seq_length; lia).
      rewrite (map_nth (fun i => f i j)), seq_nth by lia. reflexivity.
Qed.

Theorem C14_transposed : forall a m n f, is_matrix a m n f ->
  exists b, d_transposed T zero a = Ok b /\ is_matrix b n m (fun i j => f j i).
Proof.
  intros a m n f (Hm & Hn & HL & HG). unfold d_transposed. rewrite Hm, Hn.
  destruct (fill2 zero m (fun _ => 0) (fun _ => n) (fun i j => j + i * n) f
    (fun i j data => x <- vget (d_data a) (i + j * m) ;; vset data (j + i * n) x) (repeat zero (n * m)))
    as (d & E & HD & H1 & _).
  - lia.
  - intros. rewrite repeat_length. apply idx_lt; lia.
  - intros i j i' j' Hi Hj Hi' Hj' Q. apply idx_inj in Q; lia.
  - intros i j d Hi Hj _. specialize (HG i j Hi ltac:(lia)). unfold d_get in HG. rewrite Hm in HG. now rewrite HG.
  - rewrite E. cbn [bind]. eexists. split; [reflexivity|].
    rewrite repeat_length in HD. apply is_matrix_dval; auto. cbn [d_data].
    intros i j Hi Hj. apply H1; lia.
Qed.

(** the entries and the dimensions determine the value *)
Lemma is_matrix_unique a b m n f : is_matrix a m n f -> is_matrix b m n f -> a = b.
Proof.
  intros (Hm & Hn & HL & HG) (Hm' & Hn' & HL' & HG').
  destruct a as [am an ad], b as [bm bn bd]. cbn [d_nrow d_ncol d_data] in *. subst am an m n. f_equal.
  apply (nth_ext_d _ _ zero); [lia|]. intros p Hp. rewrite HL in Hp.
  assert (bm <> 0) by (destruct bm; simpl in *; lia).
  assert (Hi : p mod bm < bm) by now apply Nat.mod_upper_bound.
  assert (Hj : p / bm < bn) by (apply Nat.div_lt_upper_bound; lia).
  specialize (HG _ _ Hi Hj). specialize (HG' _ _ Hi Hj). unfold d_get in *. cbn [d_data d_nrow] in *.
  replace (p mod bm + p / bm * bm) with p in * by (rewrite (Nat.div_mod p bm) at 1; lia).
  apply vget_ok_inv with (d := zero) in HG. apply vget_ok_inv with (d := zero) in HG'. destruct HG as [_ ->], HG' as [_ ->]. reflexivity.
Qed.

Theorem C14_transposed_twice : forall a m n f, is_matrix a m n f ->
  exists b, d_transposed T zero a = Ok b /\ d_transposed T zero b = Ok a.
Proof.
  intros a m n f H. destruct (C14_transposed _ _ _ _ H) as (b & Eb & Hb).
  exists b. split; auto. destruct (C14_transposed _ _ _ _ Hb) as (c & Ec & Hc).
  rewrite Ec. f_equal. eapply is_matrix_unique; [exact Hc|exact H].
Qed.

(** ** histories of updates *)

Inductive op := OSet (i j : nat) (v : T) | OAdd (i j : nat) (v : T) | OMul (i j : nat) (v : T) | OFill (v : T).

Definition run1 (a : dmat T) (o : op) : res (dmat T) :=
  match o with
  | OSet i j v => d_set a i j v
  | OAdd i j v => d_add T add a i j v
  | OMul i j v => d_mul T mul a i j v
  | OFill v => Ok (d_fill T a v)
  end.

Fixpoint run (a : dmat T) (os : list op) : res (dmat T) :=
  match os with [] => Ok a | o :: t => b <- run1 a o ;; run b t end.

(** what the operations mean on the table of entries *)
Definition meaning (f : nat -> nat -> T) (o : op) : nat -> nat -> T :=
  match o with
  | OSet i j v => fun i' j' => if (i' =? i) && (j' =? j) then v else f i' j'
  | OAdd i j v => fun i' j' => if (i' =? i) && (j' =? j) then add (f i j) v else f i' j'
  | OMul i j v => fun i' j' => if (i' =? i) && (j' =? j) then mul (f i j) v else f i' j'
  | OFill v => fun _ _ => v
  end.

Definition valid (m n : nat) (o : op) : Prop :=
  match o with
  | OSet i j _ | OAdd i j _ | OMul i j _ => i < m /\ j < n
  | OFill _ => True
  end.

Lemma is_matrix_inv a m n f : is_matrix a m n f ->
  d_wf a /\ d_nrow a = m /\ d_ncol a = n /\ forall i j, i < m -> j < n -> dval zero a i j = f i j.
Proof.
  intros (Hm & Hn & HL & HG). assert (W : d_wf a) by (unfold d_wf; congruence). splits; auto.
  intros i j Hi Hj. specialize (HG i j Hi Hj). rewrite (d_get_val _ zero) in HG by (auto; lia). congruence.
Qed.

Lemma is_matrix_intro a m n f : d_wf a -> d_nrow a = m -> d_ncol a = n ->
  (forall i j, i < m -> j < n -> dval zero a i j = f i j) -> is_matrix a m n f.
Proof.
  intros W <- <- H. apply is_matrix_dval; auto.
Qed.

Lemma run1_ok a m n f o : is_matrix a m n f -> valid m n o ->
  exists b, run1 a o = Ok b /\ is_matrix b m n (meaning f o).
Proof.
  intros H V. apply is_matrix_inv in H. destruct H as (W & Hm & Hn & HV).
  destruct o as [i j v|i j v|i j v|v]; cbn [run1 meaning valid] in *.
  - destruct V as [Vi Vj].
    destruct (d_set_spec T zero a i j v W ltac:(lia) ltac:(lia)) as (b & E & W' & E1 & E2 & HV').
    exists b. split; auto. apply is_matrix_intro; try lia; auto.
    intros i' j' Hi' Hj'. rewrite HV' by lia. destruct (_ && _); auto.
  - destruct V as [Vi Vj].
    destruct (d_add_spec T zero add a i j v W ltac:(lia) ltac:(lia)) as (b & E & W' & E1 & E2 & HV').
    exists b. split; auto. apply is_matrix_intro; try lia; auto.
    intros i' j' Hi' Hj'. rewrite HV' by lia. rewrite !HV by lia. auto.
  - destruct V as [Vi Vj].
    destruct (d_mul_spec T zero mul a i j v W ltac:(lia) ltac:(lia)) as (b & E & W' & E1 & E2 & HV').
    exists b. split; auto. apply is_matrix_intro; try lia; auto.
    intros i' j' Hi' Hj'. rewrite HV' by lia. rewrite !HV by lia. auto.
  - eexists. split; [reflexivity|]. destruct (d_fill_spec T zero a v W) as [W' HV'].
    apply is_matrix_intro; auto. intros i' j' Hi' Hj'. apply HV'; lia.
Qed.

(** any history of in-range updates succeeds and acts on the table of entries as specified *)
Theorem C14_history : forall os a m n f, is_matrix a m n f -> Forall (valid m n) os ->
  exists b, run a os = Ok b /\ is_matrix b m n (fold_left meaning os f).
Proof.
  induction os as [|o os IH]; intros a m n f H V; cbn [run fold_left]; [eauto|].
  inversion V; subst. destruct (run1_ok a m n f o) as (b & E & Hb); auto.
  rewrite E. cbn [bind]. now apply IH.
Qed.

(** finding: `get`/`set` check only the flat index; a row index past the end reads the next column *)
Theorem C14_out_of_range_row_refuted :
  ~ (forall (a : dmat T) m n f i j, is_matrix a m n f -> ~ (i < m /\ j < n) -> d_get a i j = Panic).
Proof.
  intros H. specialize (H (d_new T zero 1 2) 1 2 _ 1 0 (C14_new 1 2)). cbn in H.
  assert (Q : Ok zero = Panic) by (apply H; lia). discriminate.
Qed.

(** ** C15 *)

(** exact content of the band array: entry (r,c) is dense(r+c-mu, c) when that is a
    matrix row, otherwise the previous content *)
Theorem C15_band : forall (band dense : dmat T) m n f g ml mu,
  is_matrix dense m n f -> is_matrix band (ml + mu + 1) n g ->
  exists b, mat_convert_to_blas_band T band dense ml mu = Ok b /\
  is_matrix b (ml + mu + 1) n
    (fun r c => if (mu <=? r + c) && (r + c - mu <? m) then f (r + c - mu) c else g r c).
Proof.
  intros band dense m n f g ml mu HD HB.
  assert (HDc := HD). destruct HDc as (Hm & Hn & _ & HG).
  apply is_matrix_inv in HB. destruct HB as (Wb & Hbm & Hbn & HBV).
  unfold mat_convert_to_blas_band. rewrite Hm, Hn, Hbm, Hbn, !Nat.eqb_refl. cbn [negb orb].
  set (lo := fun j => if mu <? j then j - mu else 0).
  set (hi := fun j => if j + ml + 1 <? m then j + ml + 1 else m).
  set (inv := fun (vis : nat -> nat -> Prop) (b : dmat T) =>
     d_wf b /\ d_nrow b = ml + mu + 1 /\ d_ncol b = n /\
     (forall i j, j < n -> lo j <= i < hi j -> vis i j -> dval zero b (i + mu - j) j = f i j) /\
     (forall r c, r < ml + mu + 1 -> c < n ->
        (forall i, lo c <= i < hi c -> vis i c -> i + mu - c <> r) -> dval zero b r c = g r c)).
  destruct (for_range_inv (fun k b => inv (fun _ j => j < k) b) (fun j band =>
      for_range (lo j) (hi j) (fun i band =>
        r <- usub (i + mu) j ;; x <- d_get dense i j ;; d_set band r j x) band) 0 n band)
    as (b & E & W & E1 & E2 & H1 & H2).
  - lia.
  - unfold inv. splits; auto. intros; lia.
  - intros j b [_ Hj] HI.
    assert (Hlo : forall i, lo j <= i -> j <= i + mu).
    { intros i Hi. unfold lo in Hi. destruct (Nat.ltb_spec mu j); lia. }
    assert (Hhi : forall i, i < hi j -> i < m /\ i + mu - j < ml + mu + 1).
    { intros i Hi. unfold hi in Hi. destruct (Nat.ltb_spec (j + ml + 1) m); lia. }
    destruct (le_lt_dec (hi j) (lo j)) as [Hem|Hne].
    + exists b. split; [unfold for_range; replace (hi j - lo j) with 0 by lia; reflexivity|].
      destruct HI as (W & E1 & E2 & H1 & H2). unfold inv. splits; auto.
      * intros i j' Hj' Hi Hv. apply H1; auto. destruct (Nat.eq_dec j' j); [subst; lia|lia].
    + destruct (for_range_inv (fun k b => inv (fun i' j' => j' < j \/ j' = j /\ i' < k) b)
        (fun i band => r <- usub (i + mu) j ;; x <- d_get dense i j ;; d_set band r j x) (lo j) (hi j) b)
        as (b' & E & W & E1 & E2 & H1 & H2).
      * lia.
      * destruct HI as (W & E1 & E2 & H1 & H2). unfold inv. splits; auto.
        -- intros i j' Hj' Hi [Hv|[-> Hv]]; [now apply H1|lia].
      * intros i b0 Hi (W & E1 & E2 & H1 & H2).
        assert (HA := Hlo i ltac:(lia)). assert (HB := Hhi i ltac:(lia)).
        rewrite usub_ok by lia. cbn [bind]. rewrite HG by lia. cbn [bind].
        destruct (d_set_spec T zero b0 (i + mu - j) j (f i j) W ltac:(lia) ltac:(lia))
          as (b1 & E & W1 & F1 & F2 & HV).
        exists b1. split; [exact E|]. unfold inv. splits; auto; try lia.
        -- intros i' j' Hj' Hi' Hv.
           assert (HA' : j' <= i' + mu). { unfold lo in Hi'. destruct (Nat.ltb_spec mu j'); lia. }
           assert (HB' : i' + mu - j' < ml + mu + 1). { unfold hi in Hi'. destruct (Nat.ltb_spec (j' + ml + 1) m); lia. }
           rewrite HV by lia.
           destruct (Nat.eqb_spec (i' + mu - j') (i + mu - j)) as [Q|Q]; destruct (Nat.eqb_spec j' j) as [Q'|Q']; cbn [andb].
           ++ subst j'. f_equal; lia.
           ++ apply H1; auto. lia.
           ++ subst j'. apply H1; auto. right. split; auto. assert (i' <> i) by (intros ->; lia). lia.
           ++ apply H1; auto. lia.
        -- intros r c Hr Hc HN. rewrite HV by lia.
           destruct (Nat.eqb_spec r (i + mu - j)) as [Q|Q]; destruct (Nat.eqb_spec c j) as [Q'|Q']; cbn [andb].
           ++ subst. exfalso. apply (HN i); auto; lia.
           ++ apply H2; auto. intros i' Hi' Hv'. apply HN; auto. lia.
           ++ apply H2; auto. intros i' Hi' Hv'. apply HN; auto. lia.
           ++ apply H2; auto. intros i' Hi' Hv'. apply HN; auto. lia.
      * exists b'. split; [exact E|]. unfold inv. splits; auto.
        -- intros i j' Hj' Hi Hv. apply H1; auto.
           destruct (Nat.eq_dec j' j); [subst; right; lia|left; lia].
        -- intros r c Hr Hc HN. apply H2; auto. intros i Hi Hv. apply HN; auto. lia.
  - exists b. split; [exact E|]. apply is_matrix_intro; auto.
    intros r c Hr Hc.
    destruct (Nat.leb_spec mu (r + c)); destruct (Nat.ltb_spec (r + c - mu) m); cbn [andb].
    + assert (HR : lo c <= r + c - mu < hi c).
      { unfold lo, hi. destruct (Nat.ltb_spec mu c); destruct (Nat.ltb_spec (c + ml + 1) m); lia. }
      rewrite <- (H1 (r + c - mu) c Hc HR Hc). f_equal. lia.
    + apply H2; auto. intros i Hi _ Q.
      assert (c <= i + mu). { unfold lo in Hi. destruct (Nat.ltb_spec mu c); lia. }
      unfold hi in Hi. destruct (Nat.ltb_spec (c + ml + 1) m); lia.
    + apply H2; auto. intros i Hi _ Q.
      assert (c <= i + mu). { unfold lo in Hi. destruct (Nat.ltb_spec mu c); lia. } lia.
    + apply H2; auto. intros i Hi _ Q.
      assert (c <= i + mu). { unfold lo in Hi. destruct (Nat.ltb_spec mu c); lia. } lia.
Qed.

(** every entry inside the band is stored, in the place LAPACK expects *)
Corollary C15_band_entry : forall (band dense b : dmat T) m n f g ml mu i j,
  is_matrix dense m n f -> is_matrix band (ml + mu + 1) n g ->
  mat_convert_to_blas_band T band dense ml mu = Ok b ->
  i < m -> j < n -> j <= i + mu -> i <= j + ml ->
  d_get b (mu + i - j) j = Ok (f i j).
Proof.
  intros band dense b m n f g ml mu i j HD HB E Hi Hj H1 H2.
  destruct (C15_band _ _ _ _ _ _ _ _ HD HB) as (b' & E' & _ & _ & _ & HG).
  rewrite E' in E. inversion E; subst b'. rewrite HG by lia.
  replace (mu <=? mu + i - j + j) with true by (symmetry; apply Nat.leb_le; lia).
  replace (mu + i - j + j - mu) with i by lia.
  replace (i <? m) with true by (symmetry; apply Nat.ltb_lt; lia). reflexivity.
Qed.

Theorem C15_dimension_error : forall (band dense : dmat T) ml mu,
  d_nrow band <> ml + mu + 1 \/ d_ncol band <> d_ncol dense ->
  exists e, mat_convert_to_blas_band T band dense ml mu = Err e.
Proof.
  intros band dense ml mu H. unfold mat_convert_to_blas_band.
  destruct (Nat.eqb_spec (d_nrow band) (ml + mu + 1)); destruct (Nat.eqb_spec (d_ncol band) (d_ncol dense)); cbn; eauto.
  destruct H; contradiction.
Qed.
End Thm.
Set Default Proof Using "Type".

Arguments is_matrix {T}.

(** ** the hypotheses are met *)

Example C14_ex_history :
  (b <- run Z Z.add Z.mul (d_new Z 0%Z 2 3) [OSet Z 1 2 5%Z; OAdd Z 1 2 3%Z; OMul Z 1 2 2%Z; OSet Z 0 1 7%Z] ;;
   x <- d_get b 1 2 ;; y <- d_get b 0 1 ;; z <- d_get b 1 1 ;; Ok (x, y, z)) = Ok (16, 7, 0)%Z.
Proof. vm_compute. reflexivity. Qed.

Example C14_ex_transposed :
  (a <- d_from Z 0%Z 2 3 (fun i j => Z.of_nat (10 * i + j)) ;; b <- d_transposed Z 0%Z a ;;
   x <- d_get b 2 1 ;; Ok (d_nrow b, x)) = Ok (3, 12%Z).
Proof. vm_compute. reflexivity. Qed.

(** the 5×5 matrix of the documentation with ml = 2, mu = 1: column-major band array, unused cells kept *)
Example C15_ex_band :
  (a <- d_from Z 0%Z 5 5 (fun i j => Z.of_nat (10 * (i + 1) + (j + 1))) ;;
   b <- mat_convert_to_blas_band Z (d_filled Z 4 5 (-1)%Z) a 2 1 ;; Ok (d_data b))
  = Ok [-1; 11; 21; 31; 12; 22; 32; 42; 23; 33; 43; 53; 34; 44; 54; -1; 45; 55; -1; -1]%Z.
Proof. vm_compute. reflexivity. Qed.

Print Assumptions C14_new.
Print Assumptions C14_filled.
Print Assumptions C14_initialized.
Print Assumptions C14_identity.
Print Assumptions C14_diagonal.
Print Assumptions C14_from.
Print Assumptions C14_from_lower.
Print Assumptions C14_from_upper.
Print Assumptions C14_triangle_not_square.
Print Assumptions C14_extract_row.
Print Assumptions C14_extract_column.
Print Assumptions C14_transposed.
Print Assumptions C14_transposed_twice.
Print Assumptions C14_history.
Print Assumptions C14_out_of_range_row_refuted.
Print Assumptions C15_band.
Print Assumptions C15_band_entry.
Print Assumptions C15_dimension_error.
