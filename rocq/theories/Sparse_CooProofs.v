(** Proofs about the COO matrix. *)
From Verif Require Import Base Dense_Model Dense_Proofs Sparse_Model Sparse_Spec.

Section P.
Variable T : Type.
Variable zero : T.
Variables add mul : T -> T -> T.
Implicit Types c : coo T.
Implicit Types ts : list (nat * nat * T).

Lemma sym_eqb_spec a b : reflect (a = b) (sym_eqb a b).
Proof. destruct a, b; simpl; constructor; congruence. Qed.

Lemma combine_firstn_upd {A B} (l1 : list A) (l2 : list B) k x y :
  k < length l1 -> k < length l2 ->
  firstn (k + 1) (combine (upd l1 k x) (upd l2 k y)) = firstn k (combine l1 l2) ++ [(x, y)].
Proof.
  revert l2 k; induction l1 as [|a l1 IH]; intros [|b l2] [|k] H1 H2; simpl in *; try lia; auto.
  f_equal. apply IH; lia.
Qed.

Lemma combine_firstn_min {A B} (l1 : list A) (l2 : list B) k :
  length l1 = length l2 -> firstn k (combine l1 l2) = combine (firstn k l1) (firstn k l2).
Proof.
  revert l2 k; induction l1 as [|a l1 IH]; intros [|b l2] [|k] H; simpl in *; try lia; auto.
  f_equal. apply IH; lia.
Qed.

Lemma upd_combine {A B} (l1 : list A) (l2 : list B) k x y :
  combine (upd l1 k x) (upd l2 k y) = upd (combine l1 l2) k (x, y).
Proof.
  revert l2 k; induction l1 as [|a l1 IH]; intros [|b l2] [|k]; simpl; auto.
  f_equal. apply IH.
Qed.

Lemma firstn_upd_snoc {A} (l : list A) k x :
  k < length l -> firstn (k + 1) (upd l k x) = firstn k l ++ [x].
Proof.
  revert k; induction l as [|a l IH]; intros [|k] H; simpl in *; try lia; auto.
  f_equal. apply IH. lia.
Qed.

Lemma coo_triplets_length (c : coo T) :
  coo_valid c -> length (coo_triplets c) = c_nnz c.
Proof.
  intros (_ & _ & _ & Hn & Hi & Hj & Hv & _).
  unfold coo_triplets. rewrite firstn_length, !combine_length. lia.
Qed.

Lemma coo_put_cases c i j x :
  coo_valid c ->
  (spec_accepts (c_nrow c) (c_ncol c) (c_max c) (c_sym c) (coo_triplets c) i j = true /\
   exists c', coo_put c i j x = (c', Ok tt) /\ coo_valid c' /\
     coo_triplets c' = coo_triplets c ++ [(i, j, x)] /\
     c_nrow c' = c_nrow c /\ c_ncol c' = c_ncol c /\ c_max c' = c_max c /\ c_sym c' = c_sym c) \/
  (spec_accepts (c_nrow c) (c_ncol c) (c_max c) (c_sym c) (coo_triplets c) i j = false /\
   exists e, coo_put c i j x = (c, Err e)).
Proof.
  intros V. assert (HL := coo_triplets_length c V).
  destruct V as (Hr & Hc & Hm & Hn & Hi & Hj & Hv & Hs & Ht).
  unfold coo_put, spec_accepts. rewrite HL.
  destruct (Nat.leb_spec (c_nrow c) i) as [H1|H1].
  { right. destruct (Nat.ltb_spec i (c_nrow c)); [lia|]. simpl. eauto. }
  destruct (Nat.ltb_spec i (c_nrow c)) as [_|]; [|lia].
  destruct (Nat.leb_spec (c_ncol c) j) as [H2|H2].
  { right. destruct (Nat.ltb_spec j (c_ncol c)); [lia|]. simpl. eauto. }
  destruct (Nat.ltb_spec j (c_ncol c)) as [_|]; [|lia].
  destruct (Nat.leb_spec (c_max c) (c_nnz c)) as [H3|H3].
  { right. destruct (Nat.ltb_spec (c_nnz c) (c_max c)); [lia|]. simpl. eauto. }
  destruct (Nat.ltb_spec (c_nnz c) (c_max c)) as [_|]; [|lia].
  cbn [andb].
  rewrite !vset_ok by lia.
  set (c' := mkCoo _ _ _ _ _ _ _ _).
  assert (Htr : coo_triplets c' = coo_triplets c ++ [(i, j, x)]).
  { unfold coo_triplets, c'; cbn [c_nnz c_ii c_jj c_vv].
    rewrite !upd_combine. apply firstn_upd_snoc. rewrite !combine_length. lia. }
  assert (HV : in_triangle (c_sym c) i j = true -> coo_valid c').
  { intros Htri. unfold coo_valid. rewrite Htr. unfold c'; cbn [c_nrow c_ncol c_nnz c_max c_ii c_jj c_vv c_sym].
    rewrite !upd_length. repeat split; try lia; auto.
    - apply in_app_or in H. destruct H as [H|[<-|[]]]; [now apply Ht|]. exact H1.
    - apply in_app_or in H. destruct H as [H|[<-|[]]]; [now apply Ht|]. exact H2.
    - apply in_app_or in H. destruct H as [H|[<-|[]]]; [now apply Ht|]. exact Htri. }
  assert (HD : forall b, in_triangle (c_sym c) i j = b ->
     sym_eqb (c_sym c) SymYesLower && (i <? j) || sym_eqb (c_sym c) SymYesUpper && (j <? i) = negb b).
  { intros b <-. destruct (c_sym c); simpl; auto.
    - destruct (Nat.ltb_spec i j), (Nat.leb_spec j i); simpl; auto; lia.
    - destruct (Nat.ltb_spec j i), (Nat.leb_spec i j); simpl; auto; lia. }
  destruct (in_triangle (c_sym c) i j) eqn:E; specialize (HD _ eq_refl); simpl in HD.
  - apply orb_false_elim in HD. destruct HD as [-> ->].
    left. split; auto. exists c'. split; [reflexivity|]. split; [now apply HV|]. auto.
  - right. split; auto. apply orb_true_iff in HD.
    destruct (sym_eqb (c_sym c) SymYesLower && (i <? j)); [eauto|].
    destruct HD as [HD|HD]; [discriminate|]. rewrite HD. eauto.
Qed.

Lemma coo_reset_valid c : coo_valid c -> coo_valid (coo_reset c).
Proof.
  intros (Hr & Hc & Hm & Hn & Hi & Hj & Hv & Hs & Ht).
  unfold coo_valid, coo_reset, coo_triplets; cbn [c_nrow c_ncol c_nnz c_max c_ii c_jj c_vv c_sym firstn].
  repeat split; auto; try lia; try (now destruct H).
Qed.

Lemma coo_new_valid nrow ncol max s c :
  coo_new T zero nrow ncol max s = Ok c ->
  coo_valid c /\ c_nrow c = nrow /\ c_ncol c = ncol /\ c_max c = max /\ c_sym c = s /\
  coo_triplets c = [].
Proof.
  unfold coo_new.
  destruct (Nat.ltb_spec nrow 1); [discriminate|].
  destruct (Nat.ltb_spec ncol 1); [discriminate|].
  destruct (Nat.ltb_spec max 1); [discriminate|].
  destruct (negb (sym_eqb s SymNo) && negb (nrow =? ncol)) eqn:E; [discriminate|].
  intros H2; inversion H2; subst; clear H2.
  repeat split; cbn [c_nrow c_ncol c_nnz c_max c_ii c_jj c_vv c_sym]; auto; try lia; try apply repeat_length;
    try (now destruct H2).
  intros Hs. destruct (sym_eqb_spec s SymNo); [congruence|].
  simpl in E. apply negb_false_iff in E. now apply Nat.eqb_eq.
Qed.

Lemma coo_run_refines os : forall c,
  coo_valid c ->
  let '(c', rs) := coo_run c os in
  let '(l', bs) := spec_run (c_nrow c) (c_ncol c) (c_max c) (c_sym c) (coo_triplets c) os in
  coo_valid c' /\ coo_triplets c' = l' /\ map outcome_flag rs = map Some bs /\
  c_nrow c' = c_nrow c /\ c_ncol c' = c_ncol c /\ c_max c' = c_max c /\ c_sym c' = c_sym c.
Proof.
  induction os as [|o os IH]; intros c V; cbn [coo_run spec_run].
  { splits; auto. }
  destruct o as [i j x|]; cbn [coo_step spec_step].
  - destruct (coo_put_cases c i j x V) as [[E (c1 & E1 & V1 & Ht & Hr & Hc & Hm & Hs)]|[E (e & E1)]];
      rewrite E, E1.
    + specialize (IH c1 V1). rewrite Ht, Hr, Hc, Hm, Hs in IH.
      destruct (coo_run c1 os) as [c2 rs], (spec_run _ _ _ _ _ os) as [l2 bs].
      destruct IH as (A & B & C & D1 & D2 & D3 & D4). splits; auto.
      cbn [map outcome_flag]. now rewrite C.
    + specialize (IH c V).
      destruct (coo_run c os) as [c2 rs], (spec_run _ _ _ _ _ os) as [l2 bs].
      destruct IH as (A & B & C & D1 & D2 & D3 & D4). splits; auto.
      cbn [map outcome_flag]. now rewrite C.
  - specialize (IH (coo_reset c) (coo_reset_valid c V)).
    assert (E : coo_triplets (coo_reset c) = []) by reflexivity. rewrite E in IH.
    cbn [coo_reset c_nrow c_ncol c_max c_sym] in IH. fold (coo_reset c) in IH.
    destruct (coo_run (coo_reset c) os) as [c2 rs], (spec_run _ _ _ _ _ os) as [l2 bs].
    destruct IH as (A & B & C & D1 & D2 & D3 & D4). splits; auto.
    cbn [map outcome_flag]. now rewrite C.
Qed.

(** ** Loops over the triplets *)

Lemma coo_vgets c k d :
  coo_valid c -> k < c_nnz c ->
  vget (c_ii c) k = Ok (row_of (nth k (coo_triplets c) d)) /\
  vget (c_jj c) k = Ok (col_of (nth k (coo_triplets c) d)) /\
  vget (c_vv c) k = Ok (val_of (nth k (coo_triplets c) d)).
Proof.
  intros V Hk. destruct V as (Hr & Hc & Hm & Hn & Hi & Hj & Hv & _ & _).
  destruct d as [[di dj] dv].
  assert (E : nth k (coo_triplets c) (di, dj, dv) =
              (nth k (c_ii c) di, nth k (c_jj c) dj, nth k (c_vv c) dv)).
  { unfold coo_triplets. 
    assert (G : forall {A} (l : list A) n q e, q < n -> nth q (firstn n l) e = nth q l e).
    { intros A l. induction l as [|a l IHl]; intros n q e Hq; destruct n, q; simpl; auto; try lia.
      apply IHl. lia. }
    rewrite G by assumption.
    rewrite combine_nth by (rewrite combine_length; lia).
    rewrite combine_nth by lia. reflexivity. }
  rewrite E. unfold row_of, col_of, val_of; cbn [fst snd].
  rewrite (vget_ok _ _ di), (vget_ok _ _ dj), (vget_ok _ _ dv) by lia. auto.
Qed.

Lemma coo_loop {S} c (f : nat -> S -> res S) (body : nat * nat * T -> S -> res S) s :
  coo_valid c ->
  (forall k t d, k < c_nnz c ->
     vget (c_ii c) k = Ok (row_of (nth k (coo_triplets c) d)) ->
     vget (c_jj c) k = Ok (col_of (nth k (coo_triplets c) d)) ->
     vget (c_vv c) k = Ok (val_of (nth k (coo_triplets c) d)) ->
     f k t = body (nth k (coo_triplets c) d) t) ->
  for_range 0 (c_nnz c) f s = for_each (coo_triplets c) body s.
Proof.
  intros V Hf.
  apply for_range_vget; [symmetry; now apply coo_triplets_length|].
  intros k t Hk. rewrite (vget_ok _ _ (0, 0, zero)) by (rewrite coo_triplets_length; assumption).
  cbn [bind]. destruct (coo_vgets c k (0, 0, zero) V Hk) as (E1 & E2 & E3).
  now apply Hf.
Qed.

(** ** Accumulation into a dense matrix *)

Definition in_range (nrow ncol : nat) (t : nat * nat * T) : Prop :=
  row_of t < nrow /\ col_of t < ncol.

Lemma fold_left_snoc {A B} (f : A -> B -> A) l x a :
  fold_left f (l ++ [x]) a = f (fold_left f l a) x.
Proof. now rewrite fold_left_app. Qed.

Lemma vals_at_snoc (ts : list (nat * nat * T)) i j a b x :
  vals_at (ts ++ [(a, b, x)]) i j =
  vals_at ts i j ++ (if (i =? a) && (j =? b) then [x] else []).
Proof.
  unfold vals_at. rewrite filter_app, map_app. f_equal. cbn [filter].
  unfold at_pos, row_of, col_of; cbn [fst snd].
  rewrite (Nat.eqb_sym a i), (Nat.eqb_sym b j).
  destruct ((i =? a) && (j =? b)); reflexivity.
Qed.

Definition accum_body (t : nat * nat * T) (a : dmat T) : res (dmat T) :=
  d_add T add a (row_of t) (col_of t) (val_of t).

Lemma accum_dense nrow ncol ts a0 :
  d_wf a0 -> d_nrow a0 = nrow -> d_ncol a0 = ncol ->
  Forall (in_range nrow ncol) ts ->
  exists a, for_each ts accum_body a0 = Ok a /\ d_wf a /\ d_nrow a = nrow /\ d_ncol a = ncol /\
    forall i j, i < nrow -> j < ncol ->
      dval zero a i j = fold_left add (vals_at ts i j) (dval zero a0 i j).
Proof.
  intros W Hr Hc HF.
  apply (for_each_inv (fun pre a => d_wf a /\ d_nrow a = nrow /\ d_ncol a = ncol /\
     forall i j, i < nrow -> j < ncol ->
      dval zero a i j = fold_left add (vals_at pre i j) (dval zero a0 i j))).
  - repeat split; auto.
  - intros pre [[p q] x] post a E (Wa & Ra & Ca & Ha).
    assert (Hin : in_range nrow ncol (p, q, x)).
    { rewrite Forall_forall in HF. apply HF. rewrite E. apply in_or_app. right. now left. }
    destruct Hin as [Hp Hq]. unfold row_of, col_of in Hp, Hq; cbn [fst snd] in Hp, Hq.
    destruct (d_add_spec T zero add a p q x) as (a' & Ea & Wa' & Ra' & Ca' & Va'); try congruence.
    exists a'. split; [exact Ea|]. repeat split; try congruence.
    intros i j Hi Hj. rewrite Va' by congruence.
    rewrite vals_at_snoc.
    destruct (Nat.eqb_spec i p) as [->|]; destruct (Nat.eqb_spec j q) as [->|]; cbn [andb];
      rewrite ?app_nil_r, ?fold_left_snoc, ?Ha by assumption; auto.
Qed.

Definition mirror_body (mirror : bool) (t : nat * nat * T) (a : dmat T) : res (dmat T) :=
  a <- d_add T add a (row_of t) (col_of t) (val_of t) ;;
  if mirror && negb (row_of t =? col_of t)
  then d_add T add a (col_of t) (row_of t) (val_of t) else Ok a.

Lemma bind_Ok_r {A} (x : res A) : bind x (fun a => Ok a) = x.
Proof. destruct x; reflexivity. Qed.

Lemma mirror_expand s ts a :
  for_each ts (mirror_body (triangular s)) a = for_each (expand s ts) accum_body a.
Proof.
  revert a; induction ts as [|[[i j] x] ts IH]; intros a; cbn [for_each expand flat_map]; auto.
  rewrite for_each_app. unfold mirror_body at 1, row_of, col_of, val_of; cbn [fst snd].
  destruct (triangular s && negb (i =? j)).
  - cbn [for_each]. unfold accum_body at 1 2, row_of, col_of, val_of; cbn [fst snd].
    destruct (d_add T add a i j x); cbn [bind]; auto.
    destruct (d_add T add a0 j i x); cbn [bind]; auto.
  - cbn [for_each]. unfold accum_body at 1, row_of, col_of, val_of; cbn [fst snd].
    destruct (d_add T add a i j x); cbn [bind]; auto.
Qed.

Lemma expand_in_range s n ts nrow ncol :
  (s <> SymNo -> nrow = ncol) ->
  n = nrow -> Forall (in_range nrow ncol) ts -> Forall (in_range nrow ncol) (expand s ts).
Proof.
  intros Hsq _ HF. apply Forall_forall. intros t Ht. unfold expand in Ht.
  apply in_flat_map in Ht. destruct Ht as ([[i j] x] & Hin & Ht).
  rewrite Forall_forall in HF. specialize (HF _ Hin). destruct HF as [H1 H2].
  unfold row_of, col_of in H1, H2; cbn [fst snd] in H1, H2.
  destruct (triangular s) eqn:E; cbn [andb] in Ht.
  - assert (nrow = ncol) by (apply Hsq; intros ->; discriminate). subst ncol.
    destruct (negb (i =? j)); cbn in Ht.
    + destruct Ht as [<-|[<-|[]]]; split; assumption.
    + destruct Ht as [<-|[]]; split; assumption.
  - destruct Ht as [<-|[]]; split; assumption.
Qed.

Lemma coo_valid_in_range c : coo_valid c -> Forall (in_range (c_nrow c) (c_ncol c)) (coo_triplets c).
Proof.
  intros V. apply Forall_forall. intros t Ht. destruct V as (_ & _ & _ & _ & _ & _ & _ & _ & H).
  destruct (H t Ht) as (A & B & _). split; assumption.
Qed.

Lemma coo_to_dense_ok c a :
  coo_valid c -> d_nrow a = c_nrow c -> d_ncol a = c_ncol c -> d_wf a ->
  exists a', coo_to_dense T zero add c a = Ok a' /\
    dense_is T zero add a' (c_nrow c) (c_ncol c) (expand (c_sym c) (coo_triplets c)).
Proof.
  intros V Hr Hc W. unfold coo_to_dense. rewrite Hr, Hc, !Nat.eqb_refl. cbn [negb orb].
  rewrite (coo_loop c _ (mirror_body (triangular (c_sym c)))); auto.
  2:{ intros k t d Hk E1 E2 E3. rewrite E1, E2, E3. reflexivity. }
  rewrite mirror_expand.
  destruct (d_fill_spec T zero a zero W) as [Wf Vf].
  destruct (accum_dense (c_nrow c) (c_ncol c) (expand (c_sym c) (coo_triplets c)) (d_fill T a zero))
    as (a' & E & W' & R' & C' & H'); auto.
  { apply expand_in_range with (n := c_nrow c); auto.
    - apply V.
    - now apply coo_valid_in_range. }
  exists a'. split; [exact E|]. repeat split; auto.
  - unfold d_wf in W'. congruence.
  - intros i j Hi Hj. rewrite (d_get_val T zero) by congruence. f_equal.
    rewrite H' by assumption. rewrite Vf by congruence. reflexivity.
Qed.

End P.

Arguments in_range {T}.
