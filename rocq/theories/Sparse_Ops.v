(** Products, sums of COO matrices, histories of updates, validation of user arrays. *)
From Coq Require Import Ring Ring_theory.
From Verif Require Import Base Dense_Model Dense_Proofs Sparse_Model Sparse_Spec Sparse_Lib Sparse_Dedup Sparse_CooProofs Sparse_Rows Sparse_CsrProofs Sparse_CscProofs Sparse_Compressed Sparse_Convert.

Set Default Proof Using "Type".

Section P.
Variable T : Type.
Variable zero : T.
Variables add mul : T -> T -> T.
Implicit Types ts : list (nat * nat * T).

(** ** matrix-vector products, exact order of evaluation *)

Definition mv_term (alpha : T) (u : list T) (t : nat * nat * T) : T :=
  mul (mul alpha (val_of t)) (nth (col_of t) u zero).

(** what is accumulated into component [i], in order *)
Definition mv_terms (alpha : T) (u : list T) ts (i : nat) : list T :=
  map (mv_term alpha u) (filter (fun t => row_of t =? i) ts).

Definition mv_body (alpha : T) (u : list T) (t : nat * nat * T) (v : list T) : res (list T) :=
  uj <- vget u (col_of t) ;;
  vadd_at T add v (row_of t) (mul (mul alpha (val_of t)) uj).

Definition mv_mirror_body (mirror : bool) (alpha : T) (u : list T) (t : nat * nat * T) (v : list T)
    : res (list T) :=
  uj <- vget u (col_of t) ;;
  v <- vadd_at T add v (row_of t) (mul (mul alpha (val_of t)) uj) ;;
  if mirror && negb (row_of t =? col_of t) then
    ui <- vget u (row_of t) ;;
    vadd_at T add v (col_of t) (mul (mul alpha (val_of t)) ui)
  else Ok v.

Lemma mv_mirror_expand s alpha u ts v :
  for_each ts (mv_mirror_body (triangular s) alpha u) v = for_each (expand s ts) (mv_body alpha u) v.
Proof.
  revert v; induction ts as [|[[i j] x] ts IH]; intros v; cbn [for_each expand flat_map]; auto.
  rewrite for_each_app. unfold mv_mirror_body at 1, row_of, col_of, val_of; cbn [fst snd].
  destruct (triangular s && negb (i =? j)); cbn [for_each];
    unfold mv_body at 1, row_of, col_of, val_of; cbn [fst snd].
  - destruct (vget u j) as [uj| |]; cbn [bind]; auto.
    destruct (vadd_at T add v i _) as [v1| |]; cbn [bind]; auto.
    unfold mv_body at 1, row_of, col_of, val_of; cbn [fst snd].
    destruct (vget u i) as [ui| |]; cbn [bind]; auto.
    destruct (vadd_at T add v1 j _) as [v2| |]; cbn [bind]; auto.
  - destruct (vget u j) as [uj| |]; cbn [bind]; auto.
    destruct (vadd_at T add v i _) as [v1| |]; cbn [bind]; auto.
Qed.

Lemma vadd_at_ok v i x : i < length v -> vadd_at T add v i x = Ok (upd v i (add (nth i v zero) x)).
Proof.
  intros H. unfold vadd_at. rewrite (vget_ok _ _ zero) by assumption. cbn [bind]. now apply vset_ok.
Qed.

Lemma mv_loop_ok alpha u ts v nrow ncol :
  Forall (in_range nrow ncol) ts -> ncol <= length u -> nrow <= length v ->
  exists v', for_each ts (mv_body alpha u) v = Ok v' /\ length v' = length v /\
    forall i, nth i v' zero = fold_left add (mv_terms alpha u ts i) (nth i v zero).
Proof.
  intros HF Hu Hv.
  apply (for_each_inv (fun pre v' => length v' = length v /\
    forall i, nth i v' zero = fold_left add (mv_terms alpha u pre i) (nth i v zero))).
  - auto.
  - intros pre [[a b] x] post v1 E [L H].
    assert (Hin : in_range nrow ncol (a, b, x)).
    { rewrite Forall_forall in HF. apply HF. rewrite E. apply in_or_app. right. now left. }
    destruct Hin as [Ha Hb]. unfold row_of, col_of in Ha, Hb; cbn [fst snd] in Ha, Hb.
    unfold mv_body, row_of, col_of, val_of; cbn [fst snd].
    rewrite (vget_ok u _ zero) by lia. cbn [bind]. rewrite vadd_at_ok by lia.
    eexists; split; [reflexivity|]. rewrite upd_length. split; auto.
    intros i. rewrite nth_upd by lia. unfold mv_terms. rewrite filter_app, map_app. cbn [filter].
    change (row_of (a, b, x)) with a. rewrite (Nat.eqb_sym a i).
    fold (mv_terms alpha u pre i).
    destruct (Nat.eqb_spec i a) as [->|].
    + cbn [map]. rewrite fold_left_app. cbn [fold_left]. rewrite H. reflexivity.
    + rewrite app_nil_r. apply H.
Qed.

Lemma expand_range s ts nrow ncol :
  (s <> SymNo -> nrow = ncol) -> Forall (in_range nrow ncol) ts -> Forall (in_range nrow ncol) (expand s ts).
Proof. intros H1 H2. now apply expand_in_range with (n := nrow). Qed.

Lemma zeros_length (v : list T) : length (map (fun _ => zero) v) = length v.
Proof. apply map_length. Qed.

Lemma zeros_nth (v : list T) i : nth i (map (fun _ => zero) v) zero = zero.
Proof. revert i; induction v; intros [|i]; simpl; auto. Qed.

Definition swap (t : nat * nat * T) : nat * nat * T := (col_of t, row_of t, val_of t).

Lemma coo_mat_vec_mul_update_ok (c : coo T) v alpha u :
  coo_valid c -> c_ncol c <= length u -> c_nrow c <= length v ->
  exists v', coo_mat_vec_mul_update T add mul c v alpha u = Ok v' /\ length v' = length v /\
    forall i, nth i v' zero =
      fold_left add (mv_terms alpha u (expand (c_sym c) (coo_triplets c)) i) (nth i v zero).
Proof.
  intros V Hu Hv. unfold coo_mat_vec_mul_update.
  destruct (Nat.ltb_spec (length u) (c_ncol c)); [lia|].
  destruct (Nat.ltb_spec (length v) (c_nrow c)); [lia|].
  unfold coo_mv_loop. rewrite (coo_loop T zero c _ (mv_mirror_body (triangular (c_sym c)) alpha u)); auto.
  2:{ intros k t d Hk E1 E2 E3. rewrite E1, E2, E3. reflexivity. }
  rewrite mv_mirror_expand. apply mv_loop_ok with (nrow := c_nrow c) (ncol := c_ncol c); auto.
  apply expand_range; [apply V|]. now apply coo_valid_in_range.
Qed.

Lemma coo_mat_vec_mul_ok (c : coo T) v alpha u :
  coo_valid c -> c_ncol c <= length u -> c_nrow c <= length v ->
  exists v', coo_mat_vec_mul T zero add mul c v alpha u = Ok v' /\ length v' = length v /\
    forall i, nth i v' zero =
      fold_left add (mv_terms alpha u (expand (c_sym c) (coo_triplets c)) i) zero.
Proof.
  intros V Hu Hv.
  destruct (coo_mat_vec_mul_update_ok c (map (fun _ => zero) v) alpha u V Hu) as (v' & E & L & H);
    [now rewrite zeros_length|].
  exists v'. rewrite zeros_length in L. splits; auto.
  - unfold coo_mat_vec_mul, coo_mat_vec_mul_update in *. rewrite zeros_length in E. exact E.
  - intros i. rewrite H, zeros_nth. reflexivity.
Qed.

Lemma coo_mat_t_vec_mul_ok (c : coo T) v alpha u :
  coo_valid c -> c_nrow c <= length u -> c_ncol c <= length v ->
  exists v', coo_mat_t_vec_mul T zero add mul c v alpha u = Ok v' /\ length v' = length v /\
    forall i, nth i v' zero =
      fold_left add (mv_terms alpha u (expand (c_sym c) (map swap (coo_triplets c))) i) zero.
Proof.
  intros V Hu Hv. unfold coo_mat_t_vec_mul.
  destruct (Nat.ltb_spec (length u) (c_nrow c)); [lia|].
  destruct (Nat.ltb_spec (length v) (c_ncol c)); [lia|].
  unfold coo_mv_loop.
  rewrite (coo_loop T zero c _ (fun t => mv_mirror_body (triangular (c_sym c)) alpha u (swap t))); auto.
  2:{ intros k t d Hk E1 E2 E3. rewrite E1, E2, E3. reflexivity. }
  rewrite <- for_each_map, mv_mirror_expand.
  destruct (mv_loop_ok alpha u (expand (c_sym c) (map swap (coo_triplets c))) (map (fun _ => zero) v) (c_ncol c) (c_nrow c))
    as (v' & E & L & H1); rewrite ?zeros_length; auto.
  - apply expand_range.
    + intros Hs. symmetry. now apply V.
    + rewrite Forall_map. eapply Forall_impl; [|apply (coo_valid_in_range T c V)].
      intros t [Ha Hb]. split; assumption.
  - exists v'. rewrite zeros_length in L. splits; auto. intros i. rewrite H1, zeros_nth. reflexivity.
Qed.

Lemma csc_mat_vec_mul_ok (s : csc T) v alpha u :
  csc_safe s -> length u = s_ncol s -> length v = s_nrow s ->
  exists v', csc_mat_vec_mul T zero add mul s v alpha u = Ok v' /\ length v' = length v /\
    forall i, nth i v' zero =
      fold_left add (mv_terms alpha u (expand (s_sym s) (csc_triplets s)) i) zero.
Proof.
  intros W Hu Hv. unfold csc_mat_vec_mul. rewrite Hu, Hv, !Nat.eqb_refl. cbn [negb].
  assert (W' := W). destruct W' as (Hsq & Wc).
  rewrite (comp_loop T zero (s_ncol s) (s_bp s) (s_bi s) (s_bx s) _
     (fun a => mv_mirror_body (triangular (s_sym s)) alpha u (csc_trip T a))).
  - rewrite <- for_each_map, <- csc_triplets_items, mv_mirror_expand.
    destruct (mv_loop_ok alpha u (expand (s_sym s) (csc_triplets s)) (map (fun _ => zero) v) (s_nrow s) (s_ncol s))
      as (v' & E & L & H1); rewrite ?zeros_length; auto; try lia.
    + apply expand_range; auto. now apply csc_trip_safe.
    + exists v'. rewrite zeros_length in L. splits; auto; [lia|]. intros i. rewrite H1, zeros_nth. reflexivity.
  - eapply safe_pointers; eassumption.
  - intros b p t Hb Hp1 Hp2. rewrite (vget_ok (s_bi s) _ 0), (vget_ok (s_bx s) _ zero) by lia. reflexivity.
Qed.

Lemma csr_mat_vec_mul_ok (s : csr T) v alpha u :
  csr_safe s -> length u = r_ncol s -> length v = r_nrow s ->
  exists v', csr_mat_vec_mul T zero add mul s v alpha u = Ok v' /\ length v' = length v /\
    forall i, nth i v' zero =
      fold_left add (mv_terms alpha u (expand (r_sym s) (csr_triplets s)) i) zero.
Proof.
  intros W Hu Hv. unfold csr_mat_vec_mul. rewrite Hu, Hv, !Nat.eqb_refl. cbn [negb].
  assert (W' := W). destruct W' as (Hsq & Wc).
  rewrite (comp_loop T zero (r_nrow s) (r_bp s) (r_bj s) (r_bx s) _
     (fun a => mv_mirror_body (triangular (r_sym s)) alpha u (csr_trip T a))).
  - rewrite <- for_each_map, <- csr_triplets_items, mv_mirror_expand.
    destruct (mv_loop_ok alpha u (expand (r_sym s) (csr_triplets s)) (map (fun _ => zero) v) (r_nrow s) (r_ncol s))
      as (v' & E & L & H1); rewrite ?zeros_length; auto; try lia.
    + apply expand_range; auto. now apply csr_trip_safe.
    + exists v'. rewrite zeros_length in L. splits; auto; [lia|]. intros i. rewrite H1, zeros_nth. reflexivity.
  - eapply safe_pointers; eassumption.
  - intros b p t Hb Hp1 Hp2. rewrite (vget_ok (r_bj s) _ 0), (vget_ok (r_bx s) _ zero) by lia. reflexivity.
Qed.

(** ** assign, add, Lagrange block *)

Lemma coo_puts_ok l : forall c : coo T,
  coo_valid c ->
  let '(c', r) := coo_puts c l in
  coo_valid c' /\ c_nrow c' = c_nrow c /\ c_ncol c' = c_ncol c /\ c_max c' = c_max c /\ c_sym c' = c_sym c /\
  exists pre post, l = pre ++ post /\ coo_triplets c' = coo_triplets c ++ pre /\
    ((r = Ok tt /\ post = []) \/
     (exists e i j x rest, r = Err e /\ post = (i, j, x) :: rest /\
        spec_accepts (c_nrow c) (c_ncol c) (c_max c) (c_sym c) (coo_triplets c ++ pre) i j = false)).
Proof.
  induction l as [|[[i j] x] l IH]; intros c V; cbn [coo_puts].
  - splits; auto. exists [], []. rewrite !app_nil_r. splits; auto.
  - destruct (coo_put_cases T c i j x V) as [[E (c1 & E1 & V1 & Ht & Hr & Hc & Hm & Hs)]|[E (e & E1)]];
      rewrite E1.
    + specialize (IH c1 V1). destruct (coo_puts c1 l) as [c2 r].
      destruct IH as (A & B1 & B2 & B3 & B4 & pre & post & El & Ep & Hd). splits; auto; try congruence.
      exists ((i, j, x) :: pre), post. rewrite Ht in Ep, Hd. rewrite <- app_assoc in Ep, Hd. cbn [app] in Ep, Hd.
      rewrite Hr, Hc, Hm, Hs in Hd.
      splits; auto. simpl. congruence.
    + splits; auto. exists [], ((i, j, x) :: l). rewrite app_nil_r. splits; auto.
      right. exists e, i, j, x, l. auto.
Qed.

Lemma coo_puts_all (c : coo T) l :
  coo_valid c ->
  Forall (fun t => row_of t < c_nrow c /\ col_of t < c_ncol c /\
                   in_triangle (c_sym c) (row_of t) (col_of t) = true) l ->
  c_nnz c + length l <= c_max c ->
  exists c', coo_puts c l = (c', Ok tt) /\ coo_valid c' /\ coo_triplets c' = coo_triplets c ++ l /\
    c_nrow c' = c_nrow c /\ c_ncol c' = c_ncol c /\ c_max c' = c_max c /\ c_sym c' = c_sym c.
Proof.
  intros V HF Hcap. assert (H := coo_puts_ok l c V). destruct (coo_puts c l) as [c' r].
  destruct H as (A & B1 & B2 & B3 & B4 & pre & post & El & Ep & [[-> ->]|Hd]).
  - rewrite app_nil_r in El. subst pre. exists c'. splits; auto.
  - exfalso. destruct Hd as (e & i & j & x & rest & _ & -> & Hacc).
    assert (Hin : In (i, j, x) l) by (rewrite El; apply in_or_app; right; now left).
    rewrite Forall_forall in HF. destruct (HF _ Hin) as (F1 & F2 & F3).
    unfold row_of, col_of in *; cbn [fst snd] in *. unfold spec_accepts in Hacc.
    rewrite F3, app_length, (coo_triplets_length T c V) in Hacc.
    rewrite El, app_length in Hcap. cbn [length] in Hcap.
    destruct (Nat.ltb_spec i (c_nrow c)); [|lia]. destruct (Nat.ltb_spec j (c_ncol c)); [|lia].
    destruct (Nat.ltb_spec (c_nnz c + length pre) (c_max c)); [discriminate|lia].
Qed.

Lemma coo_puts_full (c : coo T) l :
  coo_valid c -> c_max c < c_nnz c + length l ->
  exists c' e, coo_puts c l = (c', Err e).
Proof.
  intros V Hcap. assert (H := coo_puts_ok l c V). destruct (coo_puts c l) as [c' r].
  destruct H as (A & B1 & B2 & B3 & B4 & pre & post & El & Ep & [[-> ->]|Hd]).
  - exfalso. rewrite app_nil_r in El. subst pre.
    assert (HL := coo_triplets_length T c' A). rewrite Ep, app_length, (coo_triplets_length T c V) in HL.
    assert (c_nnz c' <= c_max c') by apply A. lia.
  - destruct Hd as (e & _ & _ & _ & _ & -> & _). eauto.
Qed.

Definition scale (alpha : T) (t : nat * nat * T) : nat * nat * T :=
  (row_of t, col_of t, mul alpha (val_of t)).

Lemma scale_map alpha ts :
  map (fun '(i, j, x) => (i, j, mul alpha x)) ts = map (scale alpha) ts.
Proof. apply map_ext. intros [[i j] x]. reflexivity. Qed.

Lemma coo_reset_ok (c : coo T) : coo_valid c -> coo_valid (coo_reset c) /\ coo_triplets (coo_reset c) = [].
Proof. intros V. split; [now apply coo_reset_valid|reflexivity]. Qed.

Lemma coo_assign_ok (a o : coo T) alpha :
  coo_valid a -> coo_valid o ->
  let '(a', r) := coo_assign T mul a alpha o in
  coo_valid a' /\ c_nrow a' = c_nrow a /\ c_ncol a' = c_ncol a /\ c_max a' = c_max a /\ c_sym a' = c_sym a /\
  ((r = Ok tt /\ c_nrow o = c_nrow a /\ c_ncol o = c_ncol a /\ c_sym o = c_sym a /\ c_nnz o <= c_max a /\
    coo_triplets a' = map (scale alpha) (coo_triplets o)) \/
   (exists e, r = Err e /\
    ((c_nrow o <> c_nrow a \/ c_ncol o <> c_ncol a \/ c_sym o <> c_sym a) /\ a' = a \/
     c_max a < c_nnz o))).
Proof.
  intros Va Vo. unfold coo_assign.
  destruct (Nat.eqb_spec (c_nrow o) (c_nrow a)) as [Hr|Hr]; cbn [negb].
  2:{ splits; auto. right. eexists. split; [reflexivity|]. auto. }
  destruct (Nat.eqb_spec (c_ncol o) (c_ncol a)) as [Hc|Hc]; cbn [negb].
  2:{ splits; auto. right. eexists. split; [reflexivity|]. auto. }
  destruct (sym_eqb_spec (c_sym o) (c_sym a)) as [Hs|Hs]; cbn [negb].
  2:{ splits; auto. right. eexists. split; [reflexivity|]. auto. }
  rewrite scale_map. destruct (coo_reset_ok a Va) as [Vr Hr0].
  assert (HL : length (map (scale alpha) (coo_triplets o)) = c_nnz o).
  { rewrite map_length. now apply coo_triplets_length. }
  destruct (Nat.le_gt_cases (c_nnz o) (c_max a)) as [Hcap|Hcap].
  - destruct (coo_puts_all (coo_reset a) (map (scale alpha) (coo_triplets o)) Vr)
      as (a' & E & V' & Ht & R1 & R2 & R3 & R4).
    + rewrite Forall_map. apply Forall_forall. intros t Ht. cbn [coo_reset c_nrow c_ncol c_sym].
      rewrite <- Hr, <- Hc, <- Hs.
      assert (H := Vo). destruct H as (_ & _ & _ & _ & _ & _ & _ & _ & H). apply H in Ht. exact Ht.
    + rewrite HL. cbn [coo_reset c_nnz c_max]. lia.
    + rewrite E. rewrite Hr0 in Ht. cbn [app] in Ht. splits; auto. left. splits; auto.
  - destruct (coo_puts_full (coo_reset a) (map (scale alpha) (coo_triplets o)) Vr) as (a' & e & E).
    + rewrite HL. cbn [coo_reset c_nnz c_max]. lia.
    + assert (H := coo_puts_ok (map (scale alpha) (coo_triplets o)) (coo_reset a) Vr). rewrite E in *.
      destruct H as (A & B1 & B2 & B3 & B4 & _). splits; auto. right. eexists. split; [reflexivity|]. auto.
Qed.

Lemma coo_add_ok (a o : coo T) alpha :
  coo_valid a -> coo_valid o ->
  let '(a', r) := coo_add T mul a alpha o in
  coo_valid a' /\ c_nrow a' = c_nrow a /\ c_ncol a' = c_ncol a /\ c_max a' = c_max a /\ c_sym a' = c_sym a /\
  ((r = Ok tt /\ c_nrow o <= c_nrow a /\ c_ncol o <= c_ncol a /\ c_sym o = c_sym a /\
    c_nnz a + c_nnz o <= c_max a /\
    coo_triplets a' = coo_triplets a ++ map (scale alpha) (coo_triplets o)) \/
   (exists e, r = Err e /\
    ((c_nrow a < c_nrow o \/ c_ncol a < c_ncol o \/ c_sym o <> c_sym a) /\ a' = a \/
     c_max a < c_nnz a + c_nnz o))).
Proof.
  intros Va Vo. unfold coo_add.
  destruct (Nat.ltb_spec (c_nrow a) (c_nrow o)) as [Hr|Hr].
  { splits; auto. right. eexists. split; [reflexivity|]. auto. }
  destruct (Nat.ltb_spec (c_ncol a) (c_ncol o)) as [Hc|Hc].
  { splits; auto. right. eexists. split; [reflexivity|]. auto. }
  destruct (sym_eqb_spec (c_sym o) (c_sym a)) as [Hs|Hs]; cbn [negb].
  2:{ splits; auto. right. eexists. split; [reflexivity|]. auto. }
  rewrite scale_map.
  assert (HL : length (map (scale alpha) (coo_triplets o)) = c_nnz o).
  { rewrite map_length. now apply coo_triplets_length. }
  destruct (Nat.le_gt_cases (c_nnz a + c_nnz o) (c_max a)) as [Hcap|Hcap].
  - destruct (coo_puts_all a (map (scale alpha) (coo_triplets o)) Va)
      as (a' & E & V' & Ht & R1 & R2 & R3 & R4).
    + rewrite Forall_map. apply Forall_forall. intros t Ht.
      rewrite <- Hs.
      assert (H := Vo). destruct H as (_ & _ & _ & _ & _ & _ & _ & _ & H). apply H in Ht.
      unfold scale, row_of, col_of in *; cbn [fst snd]. destruct Ht as (T1 & T2 & T3). splits; auto; lia.
    + rewrite HL. lia.
    + rewrite E. splits; auto. left. splits; auto.
  - destruct (coo_puts_full a (map (scale alpha) (coo_triplets o)) Va) as (a' & e & E).
    + rewrite HL. lia.
    + assert (H := coo_puts_ok (map (scale alpha) (coo_triplets o)) a Va). rewrite E in *.
      destruct H as (A & B1 & B2 & B3 & B4 & _). splits; auto. right. eexists. split; [reflexivity|]. auto.
Qed.

(** the values the Lagrange block adds at (p,q): B at (p - n, q) in the lower-left block,
    its transpose in the upper-right block, n = ncol(B) *)
Definition lagrange_vals (b : coo T) (p q : nat) : list T :=
  if (c_ncol b <=? p) && (q <? c_ncol b) then vals_at (coo_triplets b) (p - c_ncol b) q
  else if (c_ncol b <=? q) && (p <? c_ncol b) then vals_at (coo_triplets b) (q - c_ncol b) p
  else [].

(** how many triplets the block takes *)
Definition lagrange_need (a b : coo T) : nat :=
  if triangular (c_sym a) then c_nnz b else c_nnz b + c_nnz b.

Definition lagrange_list (a b : coo T) : list (nat * nat * T) :=
  match c_sym a with
  | SymYesLower => map (fun '(i, j, x) => (c_ncol b + i, j, x)) (coo_triplets b)
  | SymYesUpper => map (fun '(i, j, x) => (j, c_ncol b + i, x)) (coo_triplets b)
  | _ => flat_map (fun '(i, j, x) => [(c_ncol b + i, j, x); (j, c_ncol b + i, x)]) (coo_triplets b)
  end.

Lemma vals_at_cons i j x ts p q :
  vals_at ((i, j, x) :: ts) p q = (if (i =? p) && (j =? q) then [x] else []) ++ vals_at ts p q.
Proof.
  unfold vals_at; cbn [filter]. change (at_pos p q (i, j, x)) with ((i =? p) && (j =? q)).
  destruct ((i =? p) && (j =? q)); reflexivity.
Qed.

Lemma lagrange_vals_ok (a b : coo T) p q :
  coo_valid b ->
  vals_at (expand (c_sym a) (lagrange_list a b)) p q = lagrange_vals b p q.
Proof.
  intros Vb. unfold lagrange_list, lagrange_vals.
  assert (HC := coo_cols_lt T b Vb). induction HC as [|[[i j] x] ts Hj HF IH].
  - destruct (c_sym a); cbn [map flat_map expand];
      destruct ((c_ncol b <=? p) && (q <? c_ncol b)), ((c_ncol b <=? q) && (p <? c_ncol b)); reflexivity.
  - unfold col_of in Hj; cbn [fst snd] in Hj. set (n := c_ncol b) in *.
    rewrite !vals_at_cons.
    assert (Goal0 :
      (if (n + i =? p) && (j =? q) then [x] else []) ++
      (if (j =? p) && (n + i =? q) then [x] else []) ++
      (if (n <=? p) && (q <? n) then vals_at ts (p - n) q
       else if (n <=? q) && (p <? n) then vals_at ts (q - n) p else []) =
      (if (n <=? p) && (q <? n) then (if (i =? p - n) && (j =? q) then [x] else []) ++ vals_at ts (p - n) q
       else if (n <=? q) && (p <? n) then (if (i =? q - n) && (j =? p) then [x] else []) ++ vals_at ts (q - n) p
       else [])).
    { destruct (Nat.leb_spec n p), (Nat.ltb_spec q n), (Nat.leb_spec n q), (Nat.ltb_spec p n); cbn [andb]; try lia;
      destruct (Nat.eqb_spec (n + i) p), (Nat.eqb_spec j q), (Nat.eqb_spec j p), (Nat.eqb_spec (n + i) q),
        (Nat.eqb_spec i (p - n)), (Nat.eqb_spec i (q - n)); cbn [andb app]; auto; lia. }
    assert (Goal1 :
      (if (j =? p) && (n + i =? q) then [x] else []) ++
      (if (n + i =? p) && (j =? q) then [x] else []) ++
      (if (n <=? p) && (q <? n) then vals_at ts (p - n) q
       else if (n <=? q) && (p <? n) then vals_at ts (q - n) p else []) =
      (if (n <=? p) && (q <? n) then (if (i =? p - n) && (j =? q) then [x] else []) ++ vals_at ts (p - n) q
       else if (n <=? q) && (p <? n) then (if (i =? q - n) && (j =? p) then [x] else []) ++ vals_at ts (q - n) p
       else [])).
    { destruct (Nat.leb_spec n p), (Nat.ltb_spec q n), (Nat.leb_spec n q), (Nat.ltb_spec p n); cbn [andb]; try lia;
      destruct (Nat.eqb_spec (n + i) p), (Nat.eqb_spec j q), (Nat.eqb_spec j p), (Nat.eqb_spec (n + i) q),
        (Nat.eqb_spec i (p - n)), (Nat.eqb_spec i (q - n)); cbn [andb app]; auto; lia. }
    assert (Hne : n + i <> j) by lia.
    destruct (c_sym a); cbn [map flat_map expand app triangular andb] in *; rewrite <- IH in Goal0, Goal1;
      fold (expand (T:=T)) in *.
    + unfold expand in *. cbn [flat_map app triangular andb] in *. rewrite !vals_at_cons. exact Goal0.
    + unfold expand in *. cbn [flat_map app triangular andb] in *. rewrite !vals_at_cons. exact Goal0.
    + unfold expand in *. cbn [flat_map app triangular andb] in *.
      destruct (Nat.eqb_spec (n + i) j); [lia|]. cbn [negb app]. rewrite !vals_at_cons. exact Goal0.
    + unfold expand in *. cbn [flat_map app triangular andb] in *.
      destruct (Nat.eqb_spec j (n + i)); [lia|]. cbn [negb app]. rewrite !vals_at_cons. exact Goal1.
Qed.

Lemma expand_app s ts ts' : expand s (ts ++ ts') = expand s ts ++ expand s ts'.
Proof. unfold expand. apply flat_map_app. Qed.

Lemma coo_lagrange_ok (a b : coo T) :
  coo_valid a -> coo_valid b ->
  let '(a', r) := coo_put_lagrange_block T a b in
  coo_valid a' /\ c_nrow a' = c_nrow a /\ c_ncol a' = c_ncol a /\ c_max a' = c_max a /\ c_sym a' = c_sym a /\
  ((r = Ok tt /\ c_sym b = SymNo /\ c_ncol b + c_nrow b <= c_nrow a /\ c_ncol b + c_nrow b <= c_ncol a /\
    c_nnz a + lagrange_need a b <= c_max a /\
    forall p q, vals_at (expand (c_sym a) (coo_triplets a')) p q =
                vals_at (expand (c_sym a) (coo_triplets a)) p q ++ lagrange_vals b p q) \/
   (exists e, r = Err e /\
    ((c_sym b <> SymNo \/ c_nrow a < c_ncol b + c_nrow b \/ c_ncol a < c_ncol b + c_nrow b) /\ a' = a \/
     c_max a < c_nnz a + lagrange_need a b))).
Proof.
  intros Va Vb. unfold coo_put_lagrange_block.
  destruct (sym_eqb_spec (c_sym b) SymNo) as [Hs|Hs]; cbn [negb].
  2:{ splits; auto. right. eexists. split; [reflexivity|]. auto. }
  destruct (Nat.ltb_spec (c_nrow a) (c_ncol b + c_nrow b)) as [Hr|Hr].
  { splits; auto. right. eexists. split; [reflexivity|]. auto. }
  destruct (Nat.ltb_spec (c_ncol a) (c_ncol b + c_nrow b)) as [Hc|Hc].
  { splits; auto. right. eexists. split; [reflexivity|]. auto. }
  match goal with |- let '(_, _) := ?X in _ => assert (EX : X = coo_puts a (lagrange_list a b)) end.
  { unfold lagrange_list. destruct (c_sym a); reflexivity. }
  rewrite EX. clear EX.
  assert (HR := coo_valid_in_range T b Vb).
  assert (HF : Forall (fun t => row_of t < c_nrow a /\ col_of t < c_ncol a /\
                   in_triangle (c_sym a) (row_of t) (col_of t) = true) (lagrange_list a b)).
  { unfold lagrange_list. destruct (c_sym a); cbn [in_triangle].
    1,2: apply Forall_forall; intros t Ht; apply in_flat_map in Ht; destruct Ht as ([[i j] x] & Hin & Ht);
      rewrite Forall_forall in HR; specialize (HR _ Hin); destruct HR as [H1 H2];
      unfold row_of, col_of in *; cbn [fst snd] in *;
      destruct Ht as [<-|[<-|[]]]; cbn [fst snd]; splits; auto; lia.
    1,2: rewrite Forall_map; eapply Forall_impl; [|exact HR]; intros [[i j] x] [H1 H2];
      unfold row_of, col_of in *; cbn [fst snd] in *; splits; try lia; apply Nat.leb_le; lia. }
  assert (HL : length (lagrange_list a b) = lagrange_need a b).
  { assert (HT := coo_triplets_length T b Vb). unfold lagrange_list, lagrange_need.
    destruct (c_sym a); cbn [triangular]; rewrite <- HT, ?map_length; auto.
    all: clear; induction (coo_triplets b) as [|[[i j] x] l IH]; cbn [flat_map length app]; auto;
      rewrite IH; lia. }
  destruct (Nat.le_gt_cases (c_nnz a + lagrange_need a b) (c_max a)) as [Hcap|Hcap].
  - destruct (coo_puts_all a (lagrange_list a b) Va HF) as (a' & E & V' & Ht & R1 & R2 & R3 & R4); [lia|].
    rewrite E. splits; auto. left. splits; auto.
    intros p q. rewrite Ht, expand_app, vals_at_app. f_equal. now apply lagrange_vals_ok.
  - destruct (coo_puts_full a (lagrange_list a b) Va) as (a' & e & E); [lia|].
    assert (H := coo_puts_ok (lagrange_list a b) a Va). rewrite E in *.
    destruct H as (A & B1 & B2 & B3 & B4 & _). splits; auto. right. eexists. split; [reflexivity|]. auto.
Qed.

(** ** histories of updates *)

(** applying `update_from_coo` repeatedly; a refused update leaves the matrix as it was *)
Definition csc_updates (s : csc T) (cs : list (coo T)) : csc T :=
  fold_left (fun s c => match csc_update_from_coo T zero add s c with Ok s' => s' | _ => s end) cs s.

Definition csr_updates (s : csr T) (cs : list (coo T)) : csr T :=
  fold_left (fun s c => match csr_update_from_coo T zero add s c with Ok s' => s' | _ => s end) cs s.

(** when an update is accepted *)
Definition csc_compatible (s : csc T) (c : coo T) : Prop :=
  c_sym c = s_sym s /\ c_nrow c = s_nrow s /\ c_ncol c = s_ncol s /\ c_nnz c = length (s_bx s).

Definition csr_compatible (s : csr T) (c : coo T) : Prop :=
  c_sym c = r_sym s /\ c_nrow c = r_nrow s /\ c_ncol c = r_ncol s /\ c_nnz c = length (r_bx s).

Lemma csc_update_cases s c :
  coo_valid c -> csc_ready s ->
  (csc_compatible s c /\ exists s', csc_update_from_coo T zero add s c = Ok s' /\ csc_ready s' /\
     length (s_bx s') = length (s_bx s) /\
     csc_holds T zero add s' (c_sym c) (c_nrow c) (c_ncol c) (coo_triplets c)) \/
  (~ csc_compatible s c /\ exists e, csc_update_from_coo T zero add s c = Err e).
Proof.
  intros V R. unfold csc_compatible.
  destruct (sym_eqb_spec (c_sym c) (s_sym s)) as [H1|H1].
  2:{ right. split; [intros (A & _); auto|]. unfold csc_update_from_coo.
      destruct (sym_eqb_spec (c_sym c) (s_sym s)); [congruence|]. cbn [negb]. eauto. }
  destruct (Nat.eq_dec (c_nrow c) (s_nrow s)) as [H2|H2].
  2:{ right. split; [intros (_ & A & _); auto|]. unfold csc_update_from_coo.
      destruct (sym_eqb_spec (c_sym c) (s_sym s)); [|congruence].
      destruct (Nat.eqb_spec (c_nrow c) (s_nrow s)); [congruence|]. cbn [negb]. eauto. }
  destruct (Nat.eq_dec (c_ncol c) (s_ncol s)) as [H3|H3].
  2:{ right. split; [intros (_ & _ & A & _); auto|]. unfold csc_update_from_coo.
      destruct (sym_eqb_spec (c_sym c) (s_sym s)); [|congruence].
      destruct (Nat.eqb_spec (c_nrow c) (s_nrow s)); [|congruence].
      destruct (Nat.eqb_spec (c_ncol c) (s_ncol s)); [congruence|]. cbn [negb]. eauto. }
  destruct (Nat.eq_dec (c_nnz c) (length (s_bx s))) as [H4|H4].
  2:{ right. split; [intros (_ & _ & _ & A); auto|]. unfold csc_update_from_coo.
      destruct (sym_eqb_spec (c_sym c) (s_sym s)); [|congruence].
      destruct (Nat.eqb_spec (c_nrow c) (s_nrow s)); [|congruence].
      destruct (Nat.eqb_spec (c_ncol c) (s_ncol s)); [|congruence].
      destruct (Nat.eqb_spec (c_nnz c) (length (s_bx s))); [congruence|]. cbn [negb]. eauto. }
  left. split; auto. now apply csc_update_ok.
Qed.

Lemma csr_update_cases s c :
  coo_valid c -> csr_ready s ->
  (csr_compatible s c /\ exists s', csr_update_from_coo T zero add s c = Ok s' /\ csr_ready s' /\
     length (r_bx s') = length (r_bx s) /\
     csr_holds T zero add s' (c_sym c) (c_nrow c) (c_ncol c) (coo_triplets c)) \/
  (~ csr_compatible s c /\ exists e, csr_update_from_coo T zero add s c = Err e).
Proof.
  intros V R. unfold csr_compatible.
  destruct (sym_eqb_spec (c_sym c) (r_sym s)) as [H1|H1].
  2:{ right. split; [intros (A & _); auto|]. unfold csr_update_from_coo.
      destruct (sym_eqb_spec (c_sym c) (r_sym s)); [congruence|]. cbn [negb]. eauto. }
  destruct (Nat.eq_dec (c_nrow c) (r_nrow s)) as [H2|H2].
  2:{ right. split; [intros (_ & A & _); auto|]. unfold csr_update_from_coo.
      destruct (sym_eqb_spec (c_sym c) (r_sym s)); [|congruence].
      destruct (Nat.eqb_spec (c_nrow c) (r_nrow s)); [congruence|]. cbn [negb]. eauto. }
  destruct (Nat.eq_dec (c_ncol c) (r_ncol s)) as [H3|H3].
  2:{ right. split; [intros (_ & _ & A & _); auto|]. unfold csr_update_from_coo.
      destruct (sym_eqb_spec (c_sym c) (r_sym s)); [|congruence].
      destruct (Nat.eqb_spec (c_nrow c) (r_nrow s)); [|congruence].
      destruct (Nat.eqb_spec (c_ncol c) (r_ncol s)); [congruence|]. cbn [negb]. eauto. }
  destruct (Nat.eq_dec (c_nnz c) (length (r_bx s))) as [H4|H4].
  2:{ right. split; [intros (_ & _ & _ & A); auto|]. unfold csr_update_from_coo.
      destruct (sym_eqb_spec (c_sym c) (r_sym s)); [|congruence].
      destruct (Nat.eqb_spec (c_nrow c) (r_nrow s)); [|congruence].
      destruct (Nat.eqb_spec (c_ncol c) (r_ncol s)); [|congruence].
      destruct (Nat.eqb_spec (c_nnz c) (length (r_bx s))); [congruence|]. cbn [negb]. eauto. }
  left. split; auto. now apply csr_update_ok.
Qed.

Lemma csc_holds_same a b sy nrow ncol ts :
  csc_holds T zero add a sy nrow ncol ts -> csc_holds T zero add b sy nrow ncol ts ->
  s_bp a = s_bp b /\ forall j, j < ncol -> csc_column a j = csc_column b j.
Proof.
  intros (A1 & A2 & A3 & A4 & A5 & A6 & A7 & A) (B1 & B2 & B3 & B4 & B5 & B6 & B7 & B). split.
  - apply nth_ext_d with (d := 0); [lia|]. intros i Hi. rewrite A4 in Hi.
    induction i as [|i IH]; [congruence|]. rewrite <- Nat.add_1_r.
    rewrite (proj1 (A i ltac:(lia))), (proj1 (B i ltac:(lia))), IH by lia. reflexivity.
  - intros j Hj. rewrite (proj2 (A j Hj)), (proj2 (B j Hj)). reflexivity.
Qed.

Lemma csr_holds_same a b sy nrow ncol ts :
  csr_holds T zero add a sy nrow ncol ts -> csr_holds T zero add b sy nrow ncol ts ->
  r_bp a = r_bp b /\ forall j, j < nrow -> csr_row a j = csr_row b j.
Proof.
  intros (A1 & A2 & A3 & A4 & A5 & A6 & A7 & A) (B1 & B2 & B3 & B4 & B5 & B6 & B7 & B). split.
  - apply nth_ext_d with (d := 0); [lia|]. intros i Hi. rewrite A4 in Hi.
    induction i as [|i IH]; [congruence|]. rewrite <- Nat.add_1_r.
    rewrite (proj1 (A i ltac:(lia))), (proj1 (B i ltac:(lia))), IH by lia. reflexivity.
  - intros j Hj. rewrite (proj2 (A j Hj)), (proj2 (B j Hj)). reflexivity.
Qed.

(** the invariant kept by any history: ready, same shape *)
Lemma csc_updates_inv cs : forall s,
  csc_ready s -> Forall coo_valid cs ->
  csc_ready (csc_updates s cs) /\ s_sym (csc_updates s cs) = s_sym s /\
  s_nrow (csc_updates s cs) = s_nrow s /\ s_ncol (csc_updates s cs) = s_ncol s /\
  length (s_bx (csc_updates s cs)) = length (s_bx s).
Proof.
  induction cs as [|c cs IH]; intros s R HF; cbn [csc_updates fold_left].
  - splits; auto.
  - inversion HF as [|? ? V HF']; subst.
    destruct (csc_update_cases s c V R) as [(HC & s' & E & R' & L & HH)|(_ & e & E)]; rewrite E.
    + destruct (IH s' R' HF') as (I1 & I2 & I3 & I4 & I5). unfold csc_updates in *.
      destruct HH as (A1 & A2 & A3 & _). destruct HC as (C1 & C2 & C3 & C4).
      splits; auto; congruence.
    + apply IH; auto.
Qed.

Lemma csr_updates_inv cs : forall s,
  csr_ready s -> Forall coo_valid cs ->
  csr_ready (csr_updates s cs) /\ r_sym (csr_updates s cs) = r_sym s /\
  r_nrow (csr_updates s cs) = r_nrow s /\ r_ncol (csr_updates s cs) = r_ncol s /\
  length (r_bx (csr_updates s cs)) = length (r_bx s).
Proof.
  induction cs as [|c cs IH]; intros s R HF; cbn [csr_updates fold_left].
  - splits; auto.
  - inversion HF as [|? ? V HF']; subst.
    destruct (csr_update_cases s c V R) as [(HC & s' & E & R' & L & HH)|(_ & e & E)]; rewrite E.
    + destruct (IH s' R' HF') as (I1 & I2 & I3 & I4 & I5). unfold csr_updates in *.
      destruct HH as (A1 & A2 & A3 & _). destruct HC as (C1 & C2 & C3 & C4).
      splits; auto; congruence.
    + apply IH; auto.
Qed.

Lemma csc_history c0 s0 cs c :
  coo_valid c0 -> csc_from_coo T zero add c0 = Ok s0 -> Forall coo_valid cs -> coo_valid c ->
  c_sym c = c_sym c0 -> c_nrow c = c_nrow c0 -> c_ncol c = c_ncol c0 -> c_nnz c = c_nnz c0 ->
  exists s' f, csc_update_from_coo T zero add (csc_updates s0 cs) c = Ok s' /\
    csc_from_coo T zero add c = Ok f /\
    s_sym s' = s_sym f /\ s_nrow s' = s_nrow f /\ s_ncol s' = s_ncol f /\
    s_bp s' = s_bp f /\ forall j, j < c_ncol c -> csc_column s' j = csc_column f j.
Proof.
  intros V0 E0 HF V H1 H2 H3 H4.
  assert (Hn : 1 <= c_nnz c0).
  { unfold csc_from_coo in E0. destruct (Nat.ltb_spec (c_nnz c0) 1); [discriminate|lia]. }
  destruct (csc_from_coo_ok T zero add c0 V0 Hn) as (s0' & E0' & R0 & L0 & HH0).
  assert (s0' = s0) by congruence. subst s0'.
  destruct (csc_from_coo_ok T zero add c V ltac:(lia)) as (f & Ef & Rf & Lf & HHf).
  destruct (csc_updates_inv cs s0 R0 HF) as (I1 & I2 & I3 & I4 & I5).
  destruct HH0 as (A1 & A2 & A3 & _).
  destruct (csc_update_ok T zero add (csc_updates s0 cs) c V I1) as (s' & E & R' & L' & HH); try congruence.
  exists s', f. destruct (csc_holds_same _ _ _ _ _ _ HH HHf) as [Q1 Q2].
  destruct HH as (B1 & B2 & B3 & _), HHf as (D1 & D2 & D3 & _). splits; auto; congruence.
Qed.

Lemma csr_history c0 s0 cs c :
  coo_valid c0 -> csr_from_coo T zero add c0 = Ok s0 -> Forall coo_valid cs -> coo_valid c ->
  c_sym c = c_sym c0 -> c_nrow c = c_nrow c0 -> c_ncol c = c_ncol c0 -> c_nnz c = c_nnz c0 ->
  exists s' f, csr_update_from_coo T zero add (csr_updates s0 cs) c = Ok s' /\
    csr_from_coo T zero add c = Ok f /\
    r_sym s' = r_sym f /\ r_nrow s' = r_nrow f /\ r_ncol s' = r_ncol f /\
    r_bp s' = r_bp f /\ forall i, i < c_nrow c -> csr_row s' i = csr_row f i.
Proof.
  intros V0 E0 HF V H1 H2 H3 H4.
  assert (Hn : 1 <= c_nnz c0).
  { unfold csr_from_coo in E0. destruct (Nat.ltb_spec (c_nnz c0) 1); [discriminate|lia]. }
  destruct (csr_from_coo_ok T zero add c0 V0 Hn) as (s0' & E0' & R0 & L0 & HH0).
  assert (s0' = s0) by congruence. subst s0'.
  destruct (csr_from_coo_ok T zero add c V ltac:(lia)) as (f & Ef & Rf & Lf & HHf).
  destruct (csr_updates_inv cs s0 R0 HF) as (I1 & I2 & I3 & I4 & I5).
  destruct HH0 as (A1 & A2 & A3 & _).
  destruct (csr_update_ok T zero add (csr_updates s0 cs) c V I1) as (s' & E & R' & L' & HH); try congruence.
  exists s', f. destruct (csr_holds_same _ _ _ _ _ _ HH HHf) as [Q1 Q2].
  destruct HH as (B1 & B2 & B3 & _), HHf as (D1 & D2 & D3 & _). splits; auto; congruence.
Qed.

(** ** validation of user-given compressed arrays *)

Lemma for_n_unit (f : nat -> unit -> res unit) n lo :
  for_n n lo f tt = Ok tt <-> forall k, lo <= k < lo + n -> f k tt = Ok tt.
Proof.
  revert lo; induction n as [|n IH]; intros lo; cbn [for_n].
  - split; auto. intros _ k Hk. lia.
  - split.
    + intros H. apply bind_ok in H. destruct H as ([] & H1 & H2).
      rewrite IH in H2. intros k Hk. destruct (Nat.eq_dec k lo) as [->|]; auto. apply H2. lia.
    + intros H. rewrite H by lia. cbn [bind]. apply IH. intros k Hk. apply H. lia.
Qed.

Lemma for_range_unit (f : nat -> unit -> res unit) lo hi :
  for_range lo hi f tt = Ok tt <-> forall k, lo <= k < hi -> f k tt = Ok tt.
Proof.
  unfold for_range. rewrite for_n_unit. split; intros H k Hk; apply H; lia.
Qed.

(** the user-given arrays describe a compressed matrix with [n] buckets and indices below [m] *)
Definition arrays_ok (n m : nat) (bp bi : list Z) (bx : list T) (s : sym) : Prop :=
  1 <= n /\ 1 <= m /\ (s <> SymNo -> n = m) /\
  length bp = n + 1 /\ (1 <= nth n bp 0)%Z /\
  (nth n bp 0 <= Z.of_nat (length bi))%Z /\ (nth n bp 0 <= Z.of_nat (length bx))%Z /\
  (forall b, b < n -> (0 <= nth b bp 0 <= nth (b + 1) bp 0)%Z) /\
  (forall b p, b < n -> (nth b bp 0 <= Z.of_nat p < nth (b + 1) bp 0)%Z ->
     (0 <= nth p bi 0 < Z.of_nat m)%Z /\
     ((nth b bp 0 < Z.of_nat p)%Z -> (nth (p - 1) bi 0 <= nth p bi 0)%Z)).

Lemma arrays_pointer_le n m bp bi bx s b :
  arrays_ok n m bp bi bx s -> b <= n -> (nth b bp 0 <= nth n bp 0)%Z.
Proof.
  intros (_ & _ & _ & _ & _ & _ & _ & H & _) Hb.
  assert (G : forall k, k <= n -> (nth (n - k) bp 0 <= nth n bp 0)%Z).
  { induction k as [|k IH]; intros Hk; [rewrite Nat.sub_0_r; lia|].
    specialize (H (n - S k) ltac:(lia)). replace (n - S k + 1) with (n - k) in H by lia.
    specialize (IH ltac:(lia)). lia. }
  specialize (G (n - b) ltac:(lia)). replace (n - (n - b)) with b in G by lia. exact G.
Qed.

Lemma csc_new_iff nrow ncol bp bi bx s :
  (exists m, csc_new T nrow ncol bp bi bx s = Ok m) <-> arrays_ok ncol nrow bp bi bx s.
Proof.
  unfold csc_new. split.
  - intros [m H].
    destruct (Nat.ltb_spec nrow 1); [discriminate|].
    destruct (Nat.ltb_spec ncol 1); [discriminate|].
    destruct (Nat.eqb_spec (length bp) (ncol + 1)) as [L|]; cbn [negb] in H; [|discriminate].
    rewrite (vget_ok _ _ 0%Z) in H by lia. cbn [bind] in H.
    destruct (Z.ltb_spec (nth ncol bp 0%Z) 1); [discriminate|].
    destruct (Nat.ltb_spec (length bi) (Z.to_nat (nth ncol bp 0%Z))); [discriminate|].
    destruct (Nat.ltb_spec (length bx) (Z.to_nat (nth ncol bp 0%Z))); [discriminate|].
    destruct (negb (sym_eqb s SymNo) && negb (nrow =? ncol)) eqn:Es; [discriminate|].
    apply bind_ok in H. destruct H as ([] & HL & _). rewrite for_range_unit in HL.
    assert (HM : forall b, b < ncol -> (0 <= nth b bp 0 <= nth (b + 1) bp 0)%Z).
    { intros b Hb. specialize (HL b ltac:(lia)). rewrite (vget_ok _ _ 0%Z) in HL by lia. cbn [bind] in HL.
      destruct (Z.ltb_spec (nth b bp 0%Z) 0); [discriminate|].
      rewrite (vget_ok _ _ 0%Z) in HL by lia. cbn [bind] in HL.
      destruct (Z.ltb_spec (nth (b + 1) bp 0%Z) (nth b bp 0%Z)); [discriminate|]. lia. }
    unfold arrays_ok. splits; auto; try lia.
    + intros Hs. destruct (sym_eqb_spec s SymNo); [congruence|]. cbn [negb andb] in Es.
      apply negb_false_iff, Nat.eqb_eq in Es. auto.
    + intros b p Hb Hp. specialize (HL b ltac:(lia)). assert (HMb := HM b Hb).
      rewrite (vget_ok _ _ 0%Z) in HL by lia. cbn [bind] in HL.
      destruct (Z.ltb_spec (nth b bp 0%Z) 0); [lia|].
      rewrite (vget_ok _ _ 0%Z) in HL by lia. cbn [bind] in HL.
      destruct (Z.ltb_spec (nth (b + 1) bp 0%Z) (nth b bp 0%Z)); [lia|]. cbn zeta in HL.
      rewrite for_range_unit in HL. specialize (HL p ltac:(lia)).
      apply bind_ok in HL. destruct HL as (i & Ei & HL). apply vget_ok_inv with (d := 0%Z) in Ei.
      destruct Ei as [Hpl Ei]. subst i.
      destruct (Z.ltb_spec (nth p bi 0%Z) 0); [discriminate|].
      destruct (Z.leb_spec (Z.of_nat nrow) (nth p bi 0%Z)); [discriminate|].
      split; [lia|]. intros Hgt.
      destruct (Nat.ltb_spec (Z.to_nat (nth b bp 0%Z)) p); [|lia].
      rewrite usub_ok in HL by lia. cbn [bind] in HL.
      rewrite (vget_ok _ _ 0%Z) in HL by lia. cbn [bind] in HL.
      destruct (Z.ltb_spec (nth p bi 0%Z) (nth (p - 1) bi 0%Z)); [discriminate|]. lia.
  - intros HA. assert (HA' := HA). destruct HA' as (A1 & A2 & A3 & A4 & A5 & A6 & A7 & A8 & A9).
    destruct (Nat.ltb_spec nrow 1); [lia|].
    destruct (Nat.ltb_spec ncol 1); [lia|].
    rewrite A4, Nat.eqb_refl. cbn [negb]. rewrite (vget_ok _ _ 0%Z) by lia. cbn [bind].
    destruct (Z.ltb_spec (nth ncol bp 0%Z) 1); [lia|].
    destruct (Nat.ltb_spec (length bi) (Z.to_nat (nth ncol bp 0%Z))); [lia|].
    destruct (Nat.ltb_spec (length bx) (Z.to_nat (nth ncol bp 0%Z))); [lia|].
    replace (negb (sym_eqb s SymNo) && negb (nrow =? ncol)) with false.
    2:{ symmetry. apply andb_false_iff. destruct (sym_eqb_spec s SymNo); cbn [negb]; auto.
        right. apply negb_false_iff, Nat.eqb_eq. symmetry. auto. }
    match goal with |- context[for_range 0 ncol ?f tt] => assert (E : for_range 0 ncol f tt = Ok tt) end.
    { apply for_range_unit. intros b Hb. assert (HMb := A8 b ltac:(lia)).
      assert (Hble := arrays_pointer_le _ _ _ _ _ _ (b + 1) HA ltac:(lia)).
      rewrite (vget_ok _ _ 0%Z) by lia. cbn [bind].
      destruct (Z.ltb_spec (nth b bp 0%Z) 0); [lia|].
      rewrite (vget_ok _ _ 0%Z) by lia. cbn [bind].
      destruct (Z.ltb_spec (nth (b + 1) bp 0%Z) (nth b bp 0%Z)); [lia|]. cbn zeta.
      apply for_range_unit. intros p Hp. destruct (A9 b p ltac:(lia) ltac:(lia)) as [B1 B2].
      rewrite (vget_ok _ _ 0%Z) by lia. cbn [bind].
      destruct (Z.ltb_spec (nth p bi 0%Z) 0); [lia|].
      destruct (Z.leb_spec (Z.of_nat nrow) (nth p bi 0%Z)); [lia|].
      destruct (Nat.ltb_spec (Z.to_nat (nth b bp 0%Z)) p); [|reflexivity].
      rewrite usub_ok by lia. cbn [bind]. rewrite (vget_ok _ _ 0%Z) by lia. cbn [bind].
      destruct (Z.ltb_spec (nth p bi 0%Z) (nth (p - 1) bi 0%Z)); [lia|]. reflexivity. }
    rewrite E. cbn [bind]. eexists; reflexivity.
Qed.

Lemma csr_new_iff nrow ncol bp bj bx s :
  (exists m, csr_new T nrow ncol bp bj bx s = Ok m) <-> arrays_ok nrow ncol bp bj bx s.
Proof.
  unfold csr_new. split.
  - intros [m H].
    destruct (Nat.ltb_spec nrow 1); [discriminate|].
    destruct (Nat.ltb_spec ncol 1); [discriminate|].
    destruct (Nat.eqb_spec (length bp) (nrow + 1)) as [L|]; cbn [negb] in H; [|discriminate].
    rewrite (vget_ok _ _ 0%Z) in H by lia. cbn [bind] in H.
    destruct (Z.ltb_spec (nth nrow bp 0%Z) 1); [discriminate|].
    destruct (Nat.ltb_spec (length bj) (Z.to_nat (nth nrow bp 0%Z))); [discriminate|].
    destruct (Nat.ltb_spec (length bx) (Z.to_nat (nth nrow bp 0%Z))); [discriminate|].
    destruct (negb (sym_eqb s SymNo) && negb (nrow =? ncol)) eqn:Es; [discriminate|].
    apply bind_ok in H. destruct H as ([] & HL & _). rewrite for_range_unit in HL.
    assert (HM : forall b, b < nrow -> (0 <= nth b bp 0 <= nth (b + 1) bp 0)%Z).
    { intros b Hb. specialize (HL b ltac:(lia)). rewrite (vget_ok _ _ 0%Z) in HL by lia. cbn [bind] in HL.
      destruct (Z.ltb_spec (nth b bp 0%Z) 0); [discriminate|].
      rewrite (vget_ok _ _ 0%Z) in HL by lia. cbn [bind] in HL.
      destruct (Z.ltb_spec (nth (b + 1) bp 0%Z) (nth b bp 0%Z)); [discriminate|]. lia. }
    unfold arrays_ok. splits; auto; try lia.
    + intros Hs. destruct (sym_eqb_spec s SymNo); [congruence|]. cbn [negb andb] in Es.
      apply negb_false_iff, Nat.eqb_eq in Es. auto.
    + intros b p Hb Hp. specialize (HL b ltac:(lia)). assert (HMb := HM b Hb).
      rewrite (vget_ok _ _ 0%Z) in HL by lia. cbn [bind] in HL.
      destruct (Z.ltb_spec (nth b bp 0%Z) 0); [lia|].
      rewrite (vget_ok _ _ 0%Z) in HL by lia. cbn [bind] in HL.
      destruct (Z.ltb_spec (nth (b + 1) bp 0%Z) (nth b bp 0%Z)); [lia|]. cbn zeta in HL.
      rewrite for_range_unit in HL. specialize (HL p ltac:(lia)).
      apply bind_ok in HL. destruct HL as (i & Ei & HL). apply vget_ok_inv with (d := 0%Z) in Ei.
      destruct Ei as [Hpl Ei]. subst i.
      destruct (Z.ltb_spec (nth p bj 0%Z) 0); [discriminate|].
      destruct (Z.leb_spec (Z.of_nat ncol) (nth p bj 0%Z)); [discriminate|].
      split; [lia|]. intros Hgt.
      destruct (Nat.ltb_spec (Z.to_nat (nth b bp 0%Z)) p); [|lia].
      rewrite usub_ok in HL by lia. cbn [bind] in HL.
      rewrite (vget_ok _ _ 0%Z) in HL by lia. cbn [bind] in HL.
      destruct (Z.ltb_spec (nth p bj 0%Z) (nth (p - 1) bj 0%Z)); [discriminate|]. lia.
  - intros HA. assert (HA' := HA). destruct HA' as (A1 & A2 & A3 & A4 & A5 & A6 & A7 & A8 & A9).
    destruct (Nat.ltb_spec nrow 1); [lia|].
    destruct (Nat.ltb_spec ncol 1); [lia|].
    rewrite A4, Nat.eqb_refl. cbn [negb]. rewrite (vget_ok _ _ 0%Z) by lia. cbn [bind].
    destruct (Z.ltb_spec (nth nrow bp 0%Z) 1); [lia|].
    destruct (Nat.ltb_spec (length bj) (Z.to_nat (nth nrow bp 0%Z))); [lia|].
    destruct (Nat.ltb_spec (length bx) (Z.to_nat (nth nrow bp 0%Z))); [lia|].
    replace (negb (sym_eqb s SymNo) && negb (nrow =? ncol)) with false.
    2:{ symmetry. apply andb_false_iff. destruct (sym_eqb_spec s SymNo); cbn [negb]; auto.
        right. apply negb_false_iff, Nat.eqb_eq. auto. }
    match goal with |- context[for_range 0 nrow ?f tt] => assert (E : for_range 0 nrow f tt = Ok tt) end.
    { apply for_range_unit. intros b Hb. assert (HMb := A8 b ltac:(lia)).
      assert (Hble := arrays_pointer_le _ _ _ _ _ _ (b + 1) HA ltac:(lia)).
      rewrite (vget_ok _ _ 0%Z) by lia. cbn [bind].
      destruct (Z.ltb_spec (nth b bp 0%Z) 0); [lia|].
      rewrite (vget_ok _ _ 0%Z) by lia. cbn [bind].
      destruct (Z.ltb_spec (nth (b + 1) bp 0%Z) (nth b bp 0%Z)); [lia|]. cbn zeta.
      apply for_range_unit. intros p Hp. destruct (A9 b p ltac:(lia) ltac:(lia)) as [B1 B2].
      rewrite (vget_ok _ _ 0%Z) by lia. cbn [bind].
      destruct (Z.ltb_spec (nth p bj 0%Z) 0); [lia|].
      destruct (Z.leb_spec (Z.of_nat ncol) (nth p bj 0%Z)); [lia|].
      destruct (Nat.ltb_spec (Z.to_nat (nth b bp 0%Z)) p); [|reflexivity].
      rewrite usub_ok by lia. cbn [bind]. rewrite (vget_ok _ _ 0%Z) by lia. cbn [bind].
      destruct (Z.ltb_spec (nth p bj 0%Z) (nth (p - 1) bj 0%Z)); [lia|]. reflexivity. }
    rewrite E. cbn [bind]. eexists; reflexivity.
Qed.


(** what an accepted matrix contains: the user's numbers, and it is safe to traverse *)
Lemma csc_new_fields nrow ncol bp bi bx s m :
  csc_new T nrow ncol bp bi bx s = Ok m ->
  s_sym m = s /\ s_nrow m = nrow /\ s_ncol m = ncol /\ s_bp m = map Z.to_nat bp /\
  s_bi m = map Z.to_nat bi /\ s_bx m = bx.
Proof.
  unfold csc_new. intros H.
  destruct (nrow <? 1); [discriminate|]. destruct (ncol <? 1); [discriminate|].
  destruct (negb (length bp =? ncol + 1)); [discriminate|].
  apply bind_ok in H. destruct H as (nnz & _ & H).
  destruct (nnz <? 1)%Z; [discriminate|]. destruct (length bi <? Z.to_nat nnz); [discriminate|].
  destruct (length bx <? Z.to_nat nnz); [discriminate|].
  destruct (negb (sym_eqb s SymNo) && negb (nrow =? ncol)); [discriminate|].
  apply bind_ok in H. destruct H as (? & _ & H). inversion H; subst. cbn. splits; reflexivity.
Qed.

Lemma csr_new_fields nrow ncol bp bj bx s m :
  csr_new T nrow ncol bp bj bx s = Ok m ->
  r_sym m = s /\ r_nrow m = nrow /\ r_ncol m = ncol /\ r_bp m = map Z.to_nat bp /\
  r_bj m = map Z.to_nat bj /\ r_bx m = bx.
Proof.
  unfold csr_new. intros H.
  destruct (nrow <? 1); [discriminate|]. destruct (ncol <? 1); [discriminate|].
  destruct (negb (length bp =? nrow + 1)); [discriminate|].
  apply bind_ok in H. destruct H as (nnz & _ & H).
  destruct (nnz <? 1)%Z; [discriminate|]. destruct (length bj <? Z.to_nat nnz); [discriminate|].
  destruct (length bx <? Z.to_nat nnz); [discriminate|].
  destruct (negb (sym_eqb s SymNo) && negb (nrow =? ncol)); [discriminate|].
  apply bind_ok in H. destruct H as (? & _ & H). inversion H; subst. cbn. splits; reflexivity.
Qed.

Lemma nth_map_to_nat l i : nth i (map Z.to_nat l) 0 = Z.to_nat (nth i l 0%Z).
Proof. change 0 with (Z.to_nat 0%Z) at 1. apply map_nth. Qed.

Lemma arrays_safe n m bp bi bx s :
  arrays_ok n m bp bi bx s -> compressed_safe n m (map Z.to_nat bp) (map Z.to_nat bi) bx.
Proof.
  intros HA. assert (HA' := HA). destruct HA' as (A1 & A2 & A3 & A4 & A5 & A6 & A7 & A8 & A9).
  unfold compressed_safe. rewrite !map_length, !nth_map_to_nat. splits; try lia.
  - intros b Hb. rewrite !nth_map_to_nat. specialize (A8 b Hb). lia.
  - intros b Hb. apply Forall_forall. intros i Hi. rewrite !nth_map_to_nat in Hi.
    assert (HMb := A8 b Hb). assert (Hble := arrays_pointer_le _ _ _ _ _ _ (b + 1) HA ltac:(lia)).
    apply In_nth with (d := 0) in Hi. destruct Hi as (k & Hk & E).
    rewrite seg_length in Hk by (rewrite ?map_length; lia).
    rewrite nth_seg in E by lia. rewrite nth_map_to_nat in E.
    destruct (A9 b (Z.to_nat (nth b bp 0%Z) + k) Hb ltac:(lia)) as [B _].
    lia.
Qed.

Lemma csc_new_safe nrow ncol bp bi bx s m :
  csc_new T nrow ncol bp bi bx s = Ok m -> csc_safe m.
Proof.
  intros H. assert (HA := proj1 (csc_new_iff nrow ncol bp bi bx s) (ex_intro _ m H)).
  destruct (csc_new_fields _ _ _ _ _ _ _ H) as (E1 & E2 & E3 & E4 & E5 & E6).
  unfold csc_safe. rewrite E1, E2, E3, E4, E5, E6. split.
  - intros Hs. symmetry. now apply HA.
  - eapply arrays_safe; eassumption.
Qed.

Lemma csr_new_safe nrow ncol bp bj bx s m :
  csr_new T nrow ncol bp bj bx s = Ok m -> csr_safe m.
Proof.
  intros H. assert (HA := proj1 (csr_new_iff nrow ncol bp bj bx s) (ex_intro _ m H)).
  destruct (csr_new_fields _ _ _ _ _ _ _ H) as (E1 & E2 & E3 & E4 & E5 & E6).
  unfold csr_safe. rewrite E1, E2, E3, E4, E5, E6. split.
  - intros Hs. now apply HA.
  - eapply arrays_safe; eassumption.
Qed.

End P.
