(** C41: equation numbering. *)
From Coq Require Import Sorting.Sorted.
From Verif Require Import Base Eqs_Model.

(** any history: a new handler followed by recompute calls *)
Fixpoint eqs_run (h : eqs) (calls : list (list nat)) : res eqs :=
  match calls with [] => Ok h | p :: t => h <- eqs_recompute h p ;; eqs_run h t end.

(** ** specification *)

(** the handler describes the partition given by the prescribed list [p] *)
Definition describes (h : eqs) (neq : nat) (p : list nat) : Prop :=
  eq_neq h = neq /\
  (** partition *)
  (forall e, e < neq -> (eqs_is_prescribed h e = Ok true <-> In e p) /\ (eqs_is_prescribed h e = Ok false <-> ~ In e p)) /\
  eqs_nu h + eqs_np h = neq /\
  (** the sorted lists: ascending, containing exactly the right equations *)
  StronglySorted lt (eq_u_sorted h) /\ (forall e, In e (eq_u_sorted h) <-> e < neq /\ ~ In e p) /\
  StronglySorted lt (eq_p_sorted h) /\ (forall e, In e (eq_p_sorted h) <-> e < neq /\ In e p) /\
  (** iu and ip are the inverse of indexing into those lists, and panic on the other kind *)
  (forall e i, eqs_iu h e = Ok i <-> i < eqs_nu h /\ nth_error (eq_u_sorted h) i = Some e) /\
  (forall e i, eqs_ip h e = Ok i <-> i < eqs_np h /\ nth_error (eq_p_sorted h) i = Some e) /\
  (forall e, e < neq -> In e p -> eqs_iu h e = Panic) /\
  (forall e, e < neq -> ~ In e p -> eqs_ip h e = Panic).

(** ** proof *)
Lemma contains_spec p e : contains p e = true <-> In e p.
Proof.
  unfold contains. rewrite existsb_exists. split.
  - intros (x & H & E). apply Nat.eqb_eq in E. now subst.
  - intros H. exists e. split; auto. apply Nat.eqb_refl.
Qed.

Definition sel (b : nat -> bool) (n : nat) := filter b (seq 0 n).

Lemma sel_S b n : sel b (S n) = sel b n ++ (if b n then [n] else []).
Proof. unfold sel. rewrite seq_S, filter_app. cbn. destruct (b n); auto. Qed.

Lemma sel_sorted b n : StronglySorted lt (sel b n).
Proof.
  unfold sel. generalize 0. induction n as [|n IH]; intros s; cbn; [constructor|].
  destruct (b s); auto. constructor; auto.
  apply Forall_forall. intros x Hx. apply filter_In in Hx. destruct Hx as [Hx _]. apply in_seq in Hx. lia.
Qed.

Lemma sel_In b n e : In e (sel b n) <-> e < n /\ b e = true.
Proof. unfold sel. rewrite filter_In, in_seq. intuition lia. Qed.

Lemma sel_rank b n e : e < n -> b e = true -> nth_error (sel b n) (length (sel b e)) = Some e.
Proof.
  induction n as [|n IH]; intros H B; [lia|]. rewrite sel_S.
  destruct (Nat.eq_dec e n) as [->|N].
  - rewrite nth_error_app2 by lia. rewrite Nat.sub_diag, B. reflexivity.
  - rewrite nth_error_app1; [apply IH; auto; lia|].
    apply nth_error_Some. rewrite IH by (auto; lia). discriminate.
Qed.

Lemma sorted_NoDup l : StronglySorted lt l -> NoDup l.
Proof.
  induction 1 as [|a l H IH F]; constructor; auto.
  intros Q. rewrite Forall_forall in F. specialize (F _ Q). lia.
Qed.

Definition pre_state (p : list nat) (neq n : nat) (st : eqs * nat * nat) : Prop :=
  let '(h, iu, ip) := st in
  let b := contains p in
  let u e := negb (b e) in
  eq_neq h = neq /\ length (eq_is_prescribed h) = neq /\ length (eq_e_to_iu h) = neq /\ length (eq_e_to_ip h) = neq /\
  eq_u_sorted h = sel u n /\ eq_p_sorted h = sel b n /\ iu = length (sel u n) /\ ip = length (sel b n) /\
  forall e, e < n -> nth e (eq_is_prescribed h) false = b e /\
     nth e (eq_e_to_iu h) None = (if b e then None else Some (length (sel u e))) /\
     nth e (eq_e_to_ip h) None = (if b e then Some (length (sel b e)) else None).

Definition shape (h : eqs) (neq : nat) : Prop :=
  eq_neq h = neq /\ length (eq_is_prescribed h) = neq /\ length (eq_e_to_iu h) = neq /\ length (eq_e_to_ip h) = neq.

Lemma recompute_state h neq p : shape h neq -> (forall e, In e p -> e < neq) ->
  exists h', eqs_recompute h p = Ok h' /\ pre_state p neq neq (h', length (sel (fun e => negb (contains p e)) neq), length (sel (contains p) neq)).
Proof.
  intros (S1 & S2 & S3 & S4) HB. unfold eqs_recompute. rewrite S1.
  replace (existsb (fun p0 => neq <=? p0) p) with false.
  2:{ symmetry. apply not_true_is_false. intros E. apply existsb_exists in E. destruct E as (x & Hx & E).
      apply Nat.leb_le in E. specialize (HB _ Hx). lia. }
  cbn [eq_neq]. 
  destruct (for_range_inv (pre_state p neq) (eqs_step p) 0 neq
     (mkEqs neq (eq_is_prescribed h) (eq_e_to_iu h) (eq_e_to_ip h) [] [], 0, 0)) as ([[h' iu] ip] & E & HS).
  - lia.
  - unfold pre_state. cbn. splits; auto. intros; lia.
  - intros e [[g iu] ip] He (G1 & G2 & G3 & G4 & G5 & G6 & G7 & G8 & G9).
    unfold eqs_step. destruct (contains p e) eqn:C.
    + rewrite !vset_ok by lia. cbn [bind]. eexists. split; [reflexivity|].
      unfold pre_state. cbn [eq_neq eq_is_prescribed eq_e_to_iu eq_e_to_ip eq_u_sorted eq_p_sorted].
      rewrite !upd_length, !sel_S, C. cbn [negb]. rewrite !app_nil_r, app_length. cbn [length].
      splits; try lia; try congruence.
      intros e' He'. rewrite !nth_upd by lia. destruct (Nat.eqb_spec e' e) as [->|].
      * rewrite C. splits; auto; now subst ip.
      * apply G9. lia.
    + rewrite !vset_ok by lia. cbn [bind]. eexists. split; [reflexivity|].
      unfold pre_state. cbn [eq_neq eq_is_prescribed eq_e_to_iu eq_e_to_ip eq_u_sorted eq_p_sorted].
      rewrite !upd_length, !sel_S, C. cbn [negb]. rewrite !app_nil_r, app_length. cbn [length].
      splits; try lia; try congruence.
      intros e' He'. rewrite !nth_upd by lia. destruct (Nat.eqb_spec e' e) as [->|].
      * rewrite C. splits; auto; now subst iu.
      * apply G9. lia.
  - rewrite E. cbn [bind]. exists h'. split; auto.
    unfold pre_state in *. destruct HS as (G1 & G2 & G3 & G4 & G5 & G6 & G7 & G8 & G9). splits; auto.
Qed.

Lemma sel_both b n : length (sel (fun e => negb (b e)) n) + length (sel b n) = n.
Proof.
  induction n as [|n IH]; auto. rewrite !sel_S, !app_length. destruct (b n); cbn; lia.
Qed.

Lemma state_describes h neq p a c : pre_state p neq neq (h, a, c) -> describes h neq p.
Proof.
  intros (G1 & G2 & G3 & G4 & G5 & G6 & G7 & G8 & G9). unfold describes.
  assert (C : forall e, contains p e = true <-> In e p) by apply contains_spec.
  assert (C' : forall e, contains p e = false <-> ~ In e p).
  { intros e. rewrite <- C. destruct (contains p e); intuition congruence. }
  assert (B : forall e, e < neq -> eqs_is_prescribed h e = Ok (contains p e)).
  { intros e He. unfold eqs_is_prescribed. rewrite (vget_ok _ _ false) by lia. now rewrite (proj1 (G9 e He)). }
  splits; auto.
  - intros e He. rewrite B by auto. rewrite <- C. destruct (contains p e); split; split; intros H; try congruence; now inversion H.
  - unfold eqs_nu, eqs_np. rewrite G5, G6. apply sel_both.
  - rewrite G5. apply sel_sorted.
  - intros e. rewrite G5, sel_In, negb_true_iff, C'. reflexivity.
  - rewrite G6. apply sel_sorted.
  - intros e. rewrite G6, sel_In, C. reflexivity.
  - intros e i. unfold eqs_iu, eqs_nu. rewrite G5. set (u := fun e => negb (contains p e)). split.
    + intros H. destruct (le_lt_dec neq e) as [L|L]; [rewrite vget_panic in H by lia; discriminate|].
      rewrite (vget_ok _ _ None) in H by lia. cbn [bind] in H.
      destruct (G9 e L) as (_ & Q & _). rewrite Q in H. destruct (contains p e) eqn:Ce; [discriminate|].
      inversion H; subst i. fold u.
      assert (R := sel_rank u neq e L ltac:(unfold u; now rewrite Ce)). split; auto.
      apply nth_error_Some. congruence.
    + intros [H1 H2]. assert (I := nth_error_In _ _ H2). apply sel_In in I. destruct I as [L U].
      rewrite (vget_ok _ _ None) by lia. cbn [bind]. destruct (G9 e L) as (_ & Q & _). rewrite Q.
      assert (Ce : contains p e = false) by (unfold u in U; now apply negb_true_iff in U). rewrite Ce. f_equal. fold u.
      assert (R := sel_rank u neq e L U).
      assert (ND := sorted_NoDup _ (sel_sorted u neq)). rewrite NoDup_nth_error in ND. symmetry. apply ND; congruence.
  - intros e i. unfold eqs_ip, eqs_np. rewrite G6. split.
    + intros H. destruct (le_lt_dec neq e) as [L|L]; [rewrite vget_panic in H by lia; discriminate|].
      rewrite (vget_ok _ _ None) in H by lia. cbn [bind] in H.
      destruct (G9 e L) as (_ & _ & Q). rewrite Q in H. destruct (contains p e) eqn:Ce; [|discriminate].
      inversion H; subst i. assert (R := sel_rank (contains p) neq e L Ce). split; auto.
      apply nth_error_Some. congruence.
    + intros [H1 H2]. assert (I := nth_error_In _ _ H2). apply sel_In in I. destruct I as [L U].
      rewrite (vget_ok _ _ None) by lia. cbn [bind]. destruct (G9 e L) as (_ & _ & Q). rewrite Q, U. f_equal.
      assert (R := sel_rank (contains p) neq e L U).
      assert (ND := sorted_NoDup _ (sel_sorted (contains p) neq)). rewrite NoDup_nth_error in ND. symmetry. apply ND; congruence.
  - intros e He Hp. unfold eqs_iu. rewrite (vget_ok _ _ None) by lia. cbn [bind].
    destruct (G9 e He) as (_ & Q & _). apply C in Hp. now rewrite Q, Hp.
  - intros e He Hp. unfold eqs_ip. rewrite (vget_ok _ _ None) by lia. cbn [bind].
    destruct (G9 e He) as (_ & _ & Q). apply C' in Hp. now rewrite Q, Hp.
Qed.

Lemma new_state neq : pre_state [] neq neq (eqs_new neq, length (sel (fun e => negb (contains [] e)) neq), length (sel (contains []) neq)).
Proof.
  assert (U : forall n, sel (fun e => negb (contains [] e)) n = seq 0 n).
  { intros n. unfold sel. generalize 0. induction n; intros; cbn; auto. f_equal. auto. }
  assert (P : forall n, sel (contains []) n = []).
  { intros n. unfold sel. generalize 0. induction n; intros; cbn; auto. }
  unfold pre_state, eqs_new. cbn [eq_neq eq_is_prescribed eq_e_to_iu eq_e_to_ip eq_u_sorted eq_p_sorted].
  rewrite !repeat_length, map_length, seq_length, !U, !P. splits; auto.
  intros e He. splits.
  - now rewrite nth_repeat_lt.
  - cbn. rewrite U, seq_length. rewrite nth_indep with (d' := Some 0) by (rewrite map_length, seq_length; auto).
    rewrite map_nth, seq_nth by auto. reflexivity.
  - cbn. now rewrite nth_repeat_lt.
Qed.

Lemma run_state neq : forall calls h p a c, pre_state p neq neq (h, a, c) ->
  Forall (fun q => forall e, In e q -> e < neq) calls ->
  exists h' a' c', eqs_run h calls = Ok h' /\ pre_state (last calls p) neq neq (h', a', c').
Proof.
  induction calls as [|q calls IH]; intros h p a c HS HF; cbn [eqs_run].
  - cbn. eauto 6.
  - inversion HF as [|? ? Hq HF']; subst.
    assert (SH : shape h neq) by (destruct HS as (? & ? & ? & ? & _); unfold shape; auto).
    destruct (recompute_state h neq q SH Hq) as (h1 & E & H1). rewrite E. cbn [bind].
    destruct (IH _ _ _ _ H1 HF') as (h' & a' & c' & E' & H'). exists h', a', c'. split; auto.
    replace (last (q :: calls) p) with (last calls q); [exact H'|].
    clear. revert q p. induction calls as [|x calls IH]; intros q p; auto.
    change (last (q :: x :: calls) p) with (last (x :: calls) p). rewrite <- (IH x q). apply IH.
Qed.

(** after any history of recompute calls the handler describes exactly the last
    prescribed list: nothing of earlier calls remains *)
Theorem C41_numbering : forall neq calls,
  Forall (fun q => forall e, In e q -> e < neq) calls ->
  exists h, eqs_run (eqs_new neq) calls = Ok h /\ describes h neq (last calls []).
Proof.
  intros neq calls HF.
  destruct (run_state neq calls _ _ _ _ (new_state neq) HF) as (h & a & c & E & H).
  exists h. split; auto. eapply state_describes. exact H.
Qed.

(** the lists and maps are determined by the last prescribed set: order and repetition do not matter *)
Theorem C41_set_semantics : forall neq calls calls',
  Forall (fun q => forall e, In e q -> e < neq) calls ->
  Forall (fun q => forall e, In e q -> e < neq) calls' ->
  (forall e, In e (last calls []) <-> In e (last calls' [])) ->
  eqs_run (eqs_new neq) calls = eqs_run (eqs_new neq) calls'.
Proof.
  intros neq calls calls' H H' HE.
  destruct (run_state neq calls _ _ _ _ (new_state neq) H) as (h & a & c & E & (G1 & G2 & G3 & G4 & G5 & G6 & G7 & G8 & G9)).
  destruct (run_state neq calls' _ _ _ _ (new_state neq) H') as (h' & a' & c' & E' & (K1 & K2 & K3 & K4 & K5 & K6 & K7 & K8 & K9)).
  rewrite E, E'. f_equal.
  assert (CC : forall e, contains (last calls []) e = contains (last calls' []) e).
  { intros e. apply Bool.eq_iff_eq_true. rewrite !contains_spec. apply HE. }
  assert (SU : forall n, sel (fun e => negb (contains (last calls []) e)) n = sel (fun e => negb (contains (last calls' []) e)) n).
  { intros n. apply filter_ext. intros. now rewrite CC. }
  assert (SP : forall n, sel (contains (last calls [])) n = sel (contains (last calls' [])) n).
  { intros n. apply filter_ext. intros. now rewrite CC. }
  destruct h as [n1 l1 l2 l3 l4 l5], h' as [n1' l1' l2' l3' l4' l5']. cbn in *. f_equal.
  - congruence.
  - apply (nth_ext_d _ _ false); [lia|]. intros e He. rewrite (proj1 (G9 e ltac:(lia))), (proj1 (K9 e ltac:(lia))). apply CC.
  - apply (nth_ext_d _ _ None); [lia|]. intros e He.
    rewrite (proj1 (proj2 (G9 e ltac:(lia)))), (proj1 (proj2 (K9 e ltac:(lia)))). now rewrite CC, SU.
  - apply (nth_ext_d _ _ None); [lia|]. intros e He.
    rewrite (proj2 (proj2 (G9 e ltac:(lia)))), (proj2 (proj2 (K9 e ltac:(lia)))). now rewrite CC, SP.
  - now rewrite G5, K5, SU.
  - now rewrite G6, K6, SP.
Qed.

(** an out-of-range equation is refused *)
Theorem C41_out_of_range : forall neq p e, In e p -> neq <= e -> eqs_recompute (eqs_new neq) p = Panic.
Proof.
  intros neq p e Hp He. unfold eqs_recompute. cbn [eqs_new eq_neq].
  replace (existsb (fun p0 => neq <=? p0) p) with true; auto.
  symmetry. apply existsb_exists. exists e. split; auto. now apply Nat.leb_le.
Qed.

Example C41_ex :
  (h <- eqs_run (eqs_new 6) [[0; 1]; [5; 2; 2]] ;; x <- eqs_iu h 3 ;; y <- eqs_ip h 5 ;;
   Ok (eq_u_sorted h, eq_p_sorted h, x, y)) = Ok ([0; 1; 3; 4], [2; 5], 2, 1).
Proof. vm_compute. reflexivity. Qed.

Print Assumptions C41_numbering.
Print Assumptions C41_set_semantics.
Print Assumptions C41_out_of_range.
