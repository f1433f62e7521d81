(** Assembly of the spectral collocation matrices, for any row function. *)
From Coq Require Import Sorting.Permutation Sorting.Sorted.
From Verif Require Import Base RBase Dense_Model Sparse_Model Sparse_Spec Sparse_CooProofs Sparse_Ops Sparse_Ring Eqs_Model Eqs_Thm Grid_Model Grid_Thm Bcs_Model Bcs_Thm
  Fdm_Model Fdm_Asm Fdm_Stencil Fdm_Cap Fdm_Entries Fdm_Coef Fdm_Thm Fdm_Vec Fdm_Equiv Cheb_Model InterpLagrange_Model Spc_Model.
Local Open Scope nat_scope.

Section Spc.
Variables (h : eqs) (neq : nat) (p : list nat).
Hypothesis D : describes h neq p.
Variable val : nat -> nat -> res R.
Variable A : nat -> nat -> R.
Hypothesis VAL : forall m n, m < neq -> n < neq -> val m n = Ok (A m n).

Definition all (_ : nat) : list nat := seq 0 neq.
Definition vv (m _ n : nat) : R := A m n.

Lemma all_lt m b n : nth_error (all m) b = Some n -> n < neq.
Proof. intros H. assert (I := nth_error_In _ _ H). apply in_seq in I. lia. Qed.

Lemma all_coef m n : n < neq -> coef all vv m n = A m n.
Proof using.
  intros Hn. unfold coef, vv, all, indexed. rewrite seq_length.
  assert (E : combine (seq 0 neq) (seq 0 neq) = map (fun i => (i, i)) (seq 0 neq)).
  { generalize 0. clear. induction neq as [|k IH]; intros a; cbn; auto. now rewrite IH. }
  rewrite E, lsum_map. rewrite (lsum_single _ _ n); [now rewrite Nat.eqb_refl|apply seq_NoDup|apply in_seq; lia|].
  intros x _ N. now rewrite (proj2 (Nat.eqb_neq x n)).
Qed.

Lemma items_length rows : length (items all rows) = length rows * neq.
Proof using.
  unfold items. induction rows as [|m rows IH]; cbn [flat_map length]; auto. rewrite app_length, map_length, IH.
  unfold indexed, all. rewrite combine_length, !seq_length. lia.
Qed.
Lemma filter_length_le {X} (f : X -> bool) l : length (filter f l) <= length l.
Proof using. induction l as [|x l IH]; cbn; auto. destruct (f x); cbn; lia. Qed.

Lemma prescribed n : n < neq -> eqs_is_prescribed h n = Ok (contains p n).
Proof using D.
  intros Hn. destruct D as (_ & Q & _). destruct (Q n Hn) as [Q1 Q2]. destruct (contains p n) eqn:E.
  - apply Q1. now apply contains_spec.
  - apply Q2. intros K. apply contains_spec in K. congruence.
Qed.
Lemma not_contains n : contains p n = false -> ~ In n p.
Proof using. intros E K. apply contains_spec in K. congruence. Qed.

Lemma coo_new_no nr nc mx : 0 < nr -> 0 < nc -> 0 < mx -> exists c, coo_new R 0%R nr nc mx SymNo = Ok c.
Proof using.
  intros H1 H2 H3. unfold coo_new. destruct (Nat.ltb_spec nr 1); [lia|]. destruct (Nat.ltb_spec nc 1); [lia|].
  destruct (Nat.ltb_spec mx 1); [lia|]. cbn. eauto.
Qed.

Lemma spc_sps_ok cap extra : 0 < eqs_nu h -> 0 < eqs_np h -> neq * neq <= cap ->
  exists kb kc, spc_sps val h cap extra = Ok (kb, kc) /\
    coo_valid kb /\ c_nrow kb = eqs_nu h /\ c_ncol kb = eqs_nu h /\ c_sym kb = SymNo /\
    coo_triplets kb = flat_map (bar_of R vv h p SymNo) (items all (eq_u_sorted h)) /\
    coo_valid kc /\ c_nrow kc = eqs_nu h /\ c_ncol kc = eqs_np h /\ c_sym kc = SymNo /\
    coo_triplets kc = flat_map (chk_of R vv h p) (items all (eq_u_sorted h)).
Proof using D VAL.
  intros NU NP CAP. unfold spc_sps. assert (NE : eq_neq h = neq) by apply D.
  assert (NS : eqs_nu h + eqs_np h = neq) by apply D.
  assert (LI : length (items all (eq_u_sorted h)) <= cap).
  { rewrite items_length. change (length (eq_u_sorted h)) with (eqs_nu h). apply Nat.le_trans with (neq * neq); auto. apply Nat.mul_le_mono_r. lia. }
  assert (C1 : 0 < cap) by (clear - CAP NU NS; nia).
  destruct (coo_new_no (eqs_nu h) (eqs_nu h) (cap + extra)) as (kb0 & E0); auto; [lia|].
  destruct (coo_new_no (eqs_nu h) (eqs_np h) cap) as (kc0 & EC); auto. rewrite E0, EC. cbn [unwrap bind].
  destruct (coo_new_valid R 0%R _ _ _ _ _ E0) as (V0 & R0 & C0 & M0 & S0 & T0).
  destruct (coo_new_valid R 0%R _ _ _ _ _ EC) as (VC & RC & CC & MC & SC & TC).
  set (step := fun (a : nat * nat * nat) (st : coo R * coo R) =>
    let '(m, b, n) := a in let '(kk_bar, kk_check) := st in
    v <- val m n ;; spc_put_val h kk_bar kk_check m n v).
  assert (IU : forall m, In m (eq_u_sorted h) -> m < neq /\ ~ In m p) by (intros m; apply D).
  match goal with |- context [for_each (eq_u_sorted h) ?f (kb0, kc0)] =>
    replace (for_each (eq_u_sorted h) f (kb0, kc0)) with (for_each (items all (eq_u_sorted h)) step (kb0, kc0)) end.
  2:{ unfold items. rewrite <- for_each_flat. apply for_each_ext. intros m st Hm. rewrite NE.
      change (for_range 0 neq) with (@for_range (coo R * coo R) 0 (0 + neq)). rewrite for_range_each, for_each_map.
      unfold all, indexed. rewrite seq_length.
      assert (E : combine (seq 0 neq) (seq 0 neq) = map (fun i => (i, i)) (seq 0 neq)).
      { generalize 0. clear. induction neq as [|k IH]; intros a; cbn; auto. now rewrite IH. }
      rewrite E, for_each_map. apply for_each_ext. intros n [kb kc] _. reflexivity. }
  set (its := items all (eq_u_sorted h)) in *.
  destruct (put_loop2 R its step (bar_of R vv h p SymNo) (chk_of R vv h p) kb0 kc0) as (kb & kc & E & Vb & Vc & Tb & Tc & Sb & Sc); auto.
  - unfold fits. apply Forall_forall. intros [[i j] x] Hx. apply in_flat_map in Hx. destruct Hx as ([[m b] n] & Ha & Hx).
    unfold bar_of in Hx. destruct (bar_keep p SymNo (m, b, n)) eqn:K; [|destruct Hx]. destruct Hx as [Hx|[]]. inversion Hx; subst.
    apply in_items in Ha. destruct Ha as [Hm Hn]. destruct (IU m Hm) as [Hm1 Hm2]. apply all_lt in Hn.
    unfold bar_keep in K. apply andb_true_iff in K. destruct K as [K1 K2]. apply negb_true_iff in K1.
    rewrite R0, C0, S0. splits; auto.
    + now apply (iu_ok h neq p D).
    + apply (iu_ok h neq p D); auto. now apply not_contains.
  - unfold fits. apply Forall_forall. intros [[i j] x] Hx. apply in_flat_map in Hx. destruct Hx as ([[m b] n] & Ha & Hx).
    unfold chk_of in Hx. destruct (chk_keep p (m, b, n)) eqn:K; [|destruct Hx]. destruct Hx as [Hx|[]]. inversion Hx; subst.
    apply in_items in Ha. destruct Ha as [Hm Hn]. destruct (IU m Hm) as [Hm1 Hm2]. apply all_lt in Hn.
    unfold chk_keep in K. apply contains_spec in K. destruct (ip_ok h neq p D n Hn K) as (_ & L & _).
    rewrite RC, CC, SC. splits; auto. now apply (iu_ok h neq p D).
  - rewrite T0. cbn [length]. unfold bar_of. rewrite opt_list_length, M0. pose proof (filter_length_le (bar_keep p SymNo) its). lia.
  - rewrite TC. cbn [length]. unfold chk_of. rewrite opt_list_length, MC. pose proof (filter_length_le (chk_keep p) its). lia.
  - intros [[m b] n] c d Ha Vc Vd Fc Fd Lc Ld. apply in_items in Ha. destruct Ha as [Hm Hn]. apply all_lt in Hn.
    destruct (IU m Hm) as [Hm1 Hm2]. unfold step. rewrite VAL by auto. cbn [bind]. unfold spc_put_val.
    destruct (iu_ok h neq p D m Hm1 Hm2) as (-> & _). cbn [bind]. rewrite prescribed by auto. cbn [bind].
    unfold bar_of, chk_of, bar_keep, chk_keep in *. unfold skip in *. cbn [sym_eqb andb orb negb] in *. destruct (contains p n) eqn:K; cbn [negb andb] in *.
    + apply contains_spec in K. destruct (ip_ok h neq p D n Hn K) as (-> & L & _). cbn [bind].
      inversion Fd as [|? ? F1 _]; subst. destruct F1 as (F1 & F2 & F3). cbn [length] in Ld.
      destruct (put_unwrap_ok R d (rank_u h m) (rank_p h n) (A m n)) as (d' & -> & W & TT & R1 & R2 & R3 & R4); auto; [lia|].
      cbn [bind]. exists c, d'. rewrite app_nil_r. splits; auto; unfold same_frame; auto.
    + destruct (iu_ok h neq p D n Hn (not_contains n K)) as (-> & L & _). cbn [bind].
      inversion Fc as [|? ? F1 _]; subst. destruct F1 as (F1 & F2 & F3). cbn [length] in Lc.
      destruct (put_unwrap_ok R c (rank_u h m) (rank_u h n) (A m n)) as (c' & -> & W & TT & R1 & R2 & R3 & R4); auto; [lia|].
      cbn [bind]. exists c', d. rewrite app_nil_r. splits; auto; unfold same_frame; auto.
  - destruct Sb as (Sb1 & Sb2 & Sb3 & Sb4). destruct Sc as (Sc1 & Sc2 & Sc3 & Sc4).
    rewrite T0 in Tb. rewrite TC in Tc. cbn [app] in Tb, Tc.
    exists kb, kc. splits; auto; congruence.
Qed.

(** the Lagrange assembly is that of the finite difference method with all nodes as neighbours *)
Lemma spc_lmm_is extra cc :
  spc_lmm val h (neq * neq) extra cc = asm_lmm R 0%R 1%R neq neq all (fun m _ n => val m n) h extra cc SymNo.
Proof using D.
  unfold spc_lmm, asm_lmm. assert (NE : eq_neq h = neq) by apply D. rewrite NE. cbn [triangular].
  replace (neq * neq + extra + 2 * eqs_np h) with (neq * neq + 2 * eqs_np h + extra) by lia.
  destruct (unwrap (coo_new R 0%R _ _ _ SymNo)) as [m0| |]; cbn [bind]; auto.
  match goal with |- (mm <- ?a ;; _) = (mm <- ?b ;; _) => replace b with a; [reflexivity|] end.
  change (for_range 0 neq) with (@for_range (coo R) 0 (0 + neq)). rewrite !for_range_each. apply for_each_ext. intros m mm Hm.
  rewrite for_range_each. unfold all, indexed. rewrite seq_length.
  assert (E : combine (seq 0 neq) (seq 0 neq) = map (fun i => (i, i)) (seq 0 neq)).
  { generalize 0. clear. induction neq as [|k IH]; intros a; cbn; auto. now rewrite IH. }
  rewrite E, for_each_map. reflexivity.
Qed.

Definition U i := nth i (eq_u_sorted h) 0.
Definition P k := nth k (eq_p_sorted h) 0.

Lemma spc_sps_entries extra : 0 < eqs_nu h -> 0 < eqs_np h ->
  exists kb kc, spc_sps val h (neq * neq) extra = Ok (kb, kc) /\
    coo_valid kb /\ c_nrow kb = eqs_nu h /\ c_ncol kb = eqs_nu h /\ c_sym kb = SymNo /\
    coo_valid kc /\ c_nrow kc = eqs_nu h /\ c_ncol kc = eqs_np h /\ c_sym kc = SymNo /\
    (forall i j, i < eqs_nu h -> j < eqs_nu h -> entryR (expand (c_sym kb) (coo_triplets kb)) i j = A (U i) (U j)) /\
    (forall i k, i < eqs_nu h -> k < eqs_np h -> entryR (expand (c_sym kc) (coo_triplets kc)) i k = A (U i) (P k)).
Proof using D VAL.
  intros NU NP. destruct (spc_sps_ok (neq * neq) extra NU NP (le_n _)) as (kb & kc & E & B1 & B2 & B3 & B4 & B5 & K1 & K2 & K3 & K4 & K5).
  exists kb, kc. splits; auto.
  - intros i j Hi Hj. rewrite B4, expand_no, B5. rewrite (entry_bar all vv h neq p D) by (auto; intros; eapply all_lt; eauto).
    cbn [in_triangle]. apply all_coef. now apply (u_nth h neq p D).
  - intros i k Hi Hk. rewrite K4, expand_no, K5. rewrite (entry_chk all vv h neq p D) by (auto; intros; eapply all_lt; eauto).
    apply all_coef. now apply (p_nth h neq p D).
Qed.

Lemma spc_lmm_entries extra cc : 0 < neq ->
  exists mm oc, spc_lmm val h (neq * neq) extra cc = Ok (mm, oc) /\
    coo_valid mm /\ c_nrow mm = neq + eqs_np h /\ c_ncol mm = neq + eqs_np h /\ c_sym mm = SymNo /\
    (forall i j, i < neq + eqs_np h -> j < neq + eqs_np h -> entryR (expand (c_sym mm) (coo_triplets mm)) i j = block A P neq i j) /\
    match oc with
    | None => cc = false \/ eqs_np h = 0
    | Some c => cc = true /\ coo_valid c /\ c_nrow c = eqs_np h /\ c_ncol c = neq /\
        coo_triplets c = map (fun m => (rank_p h m, m, 1%R)) (eq_p_sorted h)
    end.
Proof using D VAL.
  intros N0. rewrite spc_lmm_is.
  destruct (asm_lmm_ok R 0%R 1%R neq neq all (fun m _ n => val m n) vv h neq p D) with (extra := extra) (cc := cc) (s := SymNo)
    as (mm & oc & E & B1 & B2 & B3 & B4 & B5 & B6).
  - intros m b n Hm Hb. apply all_lt in Hb. split; auto. now apply VAL.
  - auto.
  - cbn [triangular]. apply Nat.le_trans with (length (items all (seq 0 neq))); [apply filter_length_le|]. rewrite items_length, seq_length. auto.
  - cbn [triangular]. auto.
  - exists mm, oc. splits; auto. intros i j Hi Hj. rewrite B4, expand_no, B5.
    rewrite (entry_app R 0%R 1%R Rplus Rmult Rminus Ropp RTheory), (entry_lag h neq p D) by auto. cbn [in_triangle].
    unfold block. destruct (Nat.ltb_spec i neq), (Nat.ltb_spec j neq).
    + rewrite (entry_mm all vv) by auto. cbn [in_triangle]. rewrite all_coef by auto. unfold lag.
      destruct (Nat.ltb_spec i neq), (Nat.leb_spec neq j); try lia; cbn [andb]. destruct (Nat.leb_spec neq i); try lia. cbn [andb]. lra.
    + rewrite (entry_mm_out all vv neq) by (auto; intros; eapply all_lt; eauto). unfold lag.
      destruct (Nat.ltb_spec i neq), (Nat.leb_spec neq j); try lia; cbn [andb]. unfold Fdm_Entries.d, P. destruct (i =? _); lra.
    + rewrite (entry_mm_out all vv neq) by (auto; intros; eapply all_lt; eauto). unfold lag.
      destruct (Nat.ltb_spec i neq), (Nat.leb_spec neq i), (Nat.ltb_spec j neq); try lia; cbn [andb]. unfold Fdm_Entries.d, P. destruct (j =? _); lra.
    + rewrite (entry_mm_out all vv neq) by (auto; intros; eapply all_lt; eauto). unfold lag.
      destruct (Nat.ltb_spec i neq), (Nat.leb_spec neq i), (Nat.ltb_spec j neq); try lia; cbn [andb]. lra.
Qed.

(** ** both systems, and what their solutions are *)
Variables (g bv : nat -> R).
Variables (sps : res (coo R * coo R)) (lmm : res (coo R * option (coo R))) (vs : res (list R * list R * list R)) (vl : res (list R * list R)).
Hypothesis HS : exists extra, sps = spc_sps val h (neq * neq) extra.
Hypothesis HL : exists extra cc, lmm = spc_lmm val h (neq * neq) extra cc.
Hypothesis HV : exists a0 ac fb, vs = Ok (a0, ac, fb) /\ length ac = eqs_np h /\ length fb = eqs_nu h /\
  (forall i, i < eqs_nu h -> nth i fb 0%R = g (U i)) /\ (forall k, k < eqs_np h -> nth k ac 0%R = bv (P k)).
Hypothesis HW : exists b0 ff, vl = Ok (b0, ff) /\ length ff = neq + eqs_np h /\
  (forall m, m < neq -> nth m ff 0%R = g m) /\ (forall k, k < eqs_np h -> nth (neq + k) ff 0%R = bv (P k)).

(** the equations satisfied by a grid vector: one per unknown node, and the prescribed values *)
Definition grid_equations (a : list R) : Prop :=
  length a = neq /\
  (forall m, m < neq -> ~ In m p -> nsum neq (fun n => A m n * nth n a 0)%R = g m) /\
  (forall m, m < neq -> In m p -> nth m a 0%R = bv m).

Lemma split_sum (f : nat -> R) : nsum neq f = (nsum (eqs_nu h) (fun j => f (U j)) + nsum (eqs_np h) (fun k => f (P k)))%R.
Proof using D. exact (partition_sum h neq p D f). Qed.

Lemma row_sum m a : nsum neq (fun n => A m n * nth n a 0)%R =
  (nsum (eqs_nu h) (fun j => A m (U j) * nth (U j) a 0) + nsum (eqs_np h) (fun k => A m (P k) * nth (P k) a 0))%R.
Proof using D. exact (split_sum (fun n => A m n * nth n a 0)%R). Qed.

Lemma reduced_grid a kb kc a0 ac fb : 0 < eqs_nu h -> 0 < eqs_np h -> sps = Ok (kb, kc) -> vs = Ok (a0, ac, fb) ->
  ((exists ab, reduced_solution kb kc ac fb ab /\ joined_sps R 0%R h ab ac = Ok a) <-> grid_equations a).
Proof using D VAL HS HV.
  intros NU NP E1 E2. destruct HS as (ex & HS'). destruct (spc_sps_entries ex NU NP) as (kb' & kc' & E & B1 & B2 & B3 & B4 & K1 & K2 & K3 & K4 & EB & EC).
  rewrite E1, E in HS'. inversion HS'; subst kb' kc'; clear HS'.
  destruct HV as (a0' & ac' & fb' & E2' & LAC & LFB & FB & AC). rewrite E2 in E2'. inversion E2'; subst a0' ac' fb'; clear E2'.
  split.
  - intros (ab & (Lab & S) & J). rewrite B3 in Lab.
    destruct (joined_ok h neq p D ab ac Lab LAC) as (a' & J' & La & JU & JP). rewrite J in J'. inversion J'; subst a'; clear J'.
    assert (HP : forall m, m < neq -> In m p -> nth m a 0%R = bv m).
    { intros m Hm Pm. destruct (ip_ok h neq p D m Hm Pm) as (_ & Lk & Nk). apply nth_error_nth with (d := 0) in Nk.
      rewrite <- Nk. rewrite JP by auto. now rewrite AC. }
    split; [auto|]. split; auto. intros m Hm Pm. destruct (iu_ok h neq p D m Hm Pm) as (_ & Lk & Nk). apply nth_error_nth with (d := 0) in Nk.
    set (i := rank_u h m) in *. specialize (S i ltac:(lia)). unfold row in S. rewrite B3, K3 in S. rewrite FB in S by auto. fold (U i) in Nk. rewrite Nk in S.
    rewrite row_sum.
    rewrite (nsum_ext (eqs_nu h) (fun j => A m (U j) * nth (U j) a 0)%R (fun j => entryR (expand (c_sym kb) (coo_triplets kb)) i j * nth j ab 0)%R).
    2:{ intros j Hj. rewrite EB, Nk by auto. f_equal. now apply JU. }
    rewrite S.
    rewrite (nsum_ext (eqs_np h) (fun k => A m (P k) * nth (P k) a 0)%R (fun k => entryR (expand (c_sym kc) (coo_triplets kc)) i k * nth k ac 0)%R).
    2:{ intros k Hk. rewrite EC, Nk by auto. f_equal. now apply JP. }
    lra.
  - intros (La & HU & HP).
    pose (ab := map (fun m => nth m a 0%R) (eq_u_sorted h)).
    assert (Lab : length ab = eqs_nu h) by (unfold ab; now rewrite map_length).
    assert (Nab : forall i, i < eqs_nu h -> nth i ab 0%R = nth (U i) a 0%R).
    { intros i Hi. unfold ab. rewrite (nth_indep _ 0%R ((fun m => nth m a 0%R) 0)) by (now rewrite map_length).
      now rewrite (map_nth (fun m => nth m a 0%R)). }
    exists ab. destruct (joined_ok h neq p D ab ac Lab LAC) as (a' & J & La' & JU & JP).
    assert (a' = a).
    { apply (list_by_parts h neq p D); auto; intros k Hk; [rewrite JU, Nab; auto|]. rewrite JP, AC by auto. destruct (p_nth h neq p D k Hk). symmetry. now apply HP. }
    subst a'. split; auto. split; [congruence|]. intros i Hi. rewrite B2 in Hi. unfold row. rewrite B3, K3, FB by auto.
    destruct (u_nth h neq p D i Hi) as [Lu Pu]. fold (U i) in Lu, Pu. rewrite <- (HU (U i) Lu Pu), row_sum.
    rewrite (nsum_ext (eqs_nu h) (fun j => A (U i) (U j) * nth (U j) a 0)%R (fun j => entryR (expand (c_sym kb) (coo_triplets kb)) i j * nth j ab 0)%R).
    2:{ intros j Hj. now rewrite EB, Nab by auto. }
    rewrite (nsum_ext (eqs_np h) (fun k => A (U i) (P k) * nth (P k) a 0)%R (fun k => entryR (expand (c_sym kc) (coo_triplets kc)) i k * nth k ac 0)%R).
    2:{ intros k Hk. rewrite EC, AC by auto. destruct (p_nth h neq p D k Hk). f_equal. now apply HP. }
    lra.
Qed.

Lemma lagrange_grid a mm oc b0 ff : 0 < neq -> lmm = Ok (mm, oc) -> vl = Ok (b0, ff) -> length a = neq ->
  ((exists lam, length lam = eqs_np h /\ solution mm ff (a ++ lam)) <-> grid_equations a).
Proof using D VAL HL HW.
  clear HS HV. intros N0 E1 E2 La. destruct HL as (ex & cc & HL'). destruct (spc_lmm_entries ex cc N0) as (mm' & oc' & E & B1 & B2 & B3 & B4 & EM & _).
  rewrite E1, E in HL'. inversion HL'; subst mm' oc'; clear HL'.
  destruct HW as (b0' & ff' & E2' & LF & F1 & F2). rewrite E2 in E2'. inversion E2'; subst b0' ff'; clear E2'.
  assert (ROW : forall lam r, length lam = eqs_np h -> r < neq + eqs_np h -> row mm (neq + eqs_np h) (a ++ lam) r =
     (nsum neq (fun n => block A P neq r n * nth n a 0) + nsum (eqs_np h) (fun k => block A P neq r (neq + k) * nth k lam 0))%R).
  { intros lam r Ll Hr. unfold row. rewrite nsum_app. f_equal; apply nsum_ext; intros q Hq; rewrite EM by lia.
    - now rewrite app_nth1 by lia.
    - rewrite app_nth2 by lia. do 2 f_equal. lia. }
  assert (TOP : forall lam m, length lam = eqs_np h -> m < neq -> row mm (neq + eqs_np h) (a ++ lam) m =
     (nsum neq (fun n => A m n * nth n a 0) + nsum (eqs_np h) (fun k => (if m =? P k then 1 else 0) * nth k lam 0))%R).
  { intros lam m Ll Hm. rewrite ROW by (auto; lia). f_equal; apply nsum_ext; intros q Hq; unfold block.
    - destruct (Nat.ltb_spec m neq), (Nat.ltb_spec q neq); try lia. reflexivity.
    - destruct (Nat.ltb_spec m neq), (Nat.ltb_spec (neq + q) neq); try lia. replace (neq + q - neq) with q by lia. reflexivity. }
  assert (BOT : forall lam k, length lam = eqs_np h -> k < eqs_np h -> row mm (neq + eqs_np h) (a ++ lam) (neq + k) = nth (P k) a 0%R).
  { intros lam k Ll Hk. rewrite ROW by (auto; lia). rewrite (nsum_ext (eqs_np h) _ (fun _ => 0%R)).
    2:{ intros q Hq. unfold block. destruct (Nat.ltb_spec (neq + k) neq), (Nat.ltb_spec (neq + q) neq); try lia. lra. }
    unfold nsum at 2. rewrite lsum_zero by auto. unfold nsum. destruct (p_nth h neq p D k Hk) as [Lp _]. fold (P k) in Lp.
    rewrite (lsum_single _ _ (P k)); [|apply seq_NoDup|apply in_seq; lia|].
    - unfold block. destruct (Nat.ltb_spec (neq + k) neq), (Nat.ltb_spec (P k) neq); try lia. replace (neq + k - neq) with k by lia. rewrite Nat.eqb_refl. lra.
    - intros q Hq N. apply in_seq in Hq. unfold block. destruct (Nat.ltb_spec (neq + k) neq), (Nat.ltb_spec q neq); try lia. replace (neq + k - neq) with k by lia.
      rewrite (proj2 (Nat.eqb_neq q (P k))) by auto. lra. }
  split.
  - intros (lam & Ll & _ & S). rewrite B2, B3 in S. split; [auto|]. split.
    + intros m Hm Pm. specialize (S m ltac:(lia)). rewrite TOP, F1 in S by auto. rewrite <- S.
      rewrite (nsum_ext (eqs_np h) _ (fun _ => 0%R)); [unfold nsum at 3; rewrite lsum_zero by auto; lra|].
      intros k Hk. destruct (p_nth h neq p D k Hk) as [_ Pk]. fold (P k) in Pk. destruct (Nat.eqb_spec m (P k)); [subst; contradiction|lra].
    + intros m Hm Pm. destruct (ip_ok h neq p D m Hm Pm) as (_ & Lk & Nk). apply nth_error_nth with (d := 0) in Nk. fold (P (rank_p h m)) in Nk.
      specialize (S (neq + rank_p h m) ltac:(lia)). rewrite BOT, F2, Nk in S by auto. exact S.
  - intros (_ & HU & HP). pose (lam := map (fun k => (g (P k) - nsum neq (fun n => A (P k) n * nth n a 0))%R) (seq 0 (eqs_np h))).
    assert (Ll : length lam = eqs_np h) by (unfold lam; now rewrite map_length, seq_length).
    assert (Nl : forall k, k < eqs_np h -> nth k lam 0%R = (g (P k) - nsum neq (fun n => A (P k) n * nth n a 0))%R).
    { intros k Hk. unfold lam. set (fn := fun k : nat => (g (P k) - nsum neq (fun n => A (P k) n * nth n a 0))%R).
      rewrite (nth_indep _ 0%R (fn 0)) by (now rewrite map_length, seq_length). rewrite (map_nth fn). now rewrite seq_nth. }
    exists lam. split; auto. split; [rewrite app_length, La, Ll; congruence|]. intros r Hr. rewrite B2 in Hr. rewrite B3.
    destruct (Nat.lt_ge_cases r neq) as [L|L].
    + rewrite TOP, F1 by auto. destruct (in_dec Nat.eq_dec r p) as [I|I].
      * destruct (ip_ok h neq p D r L I) as (_ & Lk & Nk). apply nth_error_nth with (d := 0) in Nk. fold (P (rank_p h r)) in Nk.
        unfold nsum at 2. rewrite (lsum_single _ _ (rank_p h r)); [|apply seq_NoDup|apply in_seq; lia|].
        -- rewrite Nl, Nk, Nat.eqb_refl by auto. lra.
        -- intros k Hk N. apply in_seq in Hk. destruct (Nat.eqb_spec r (P k)) as [->|]; [|lra].
           exfalso. apply N. unfold P. rewrite (rank_p_nth h neq p D) by lia. auto.
      * rewrite (nsum_ext (eqs_np h) _ (fun _ => 0%R)); [unfold nsum at 2; rewrite lsum_zero by auto; rewrite HU by auto; lra|].
        intros k Hk. destruct (p_nth h neq p D k Hk) as [_ Pk]. fold (P k) in Pk. destruct (Nat.eqb_spec r (P k)); [subst; contradiction|lra].
    + replace r with (neq + (r - neq)) by lia. rewrite BOT, F2 by (auto; lia). destruct (p_nth h neq p D (r - neq) ltac:(lia)) as [Lk Pk]. now apply HP.
Qed.

(** ** the drivers with an exact linear solver *)
Variable solve : coo R -> list R -> res (list R).
Hypothesis EX : exact_solver solve.

Lemma driver_sps a : 0 < eqs_nu h -> 0 < eqs_np h -> spc_solve_sps solve sps vs h = Ok a -> grid_equations a.
Proof using D VAL HS HV EX.
  clear HL HW. intros NU NP H. destruct HS as (ex & HS'). destruct (spc_sps_entries ex NU NP) as (kb & kc & E & B1 & B2 & B3 & B4 & K1 & K2 & K3 & K4 & _).
  rewrite E in HS'. destruct HV as (a0 & ac & fb & E2 & LAC & LFB & _).
  apply (reduced_grid a kb kc a0 ac fb NU NP HS' E2). unfold spc_solve_sps in H. rewrite HS', E2 in H. cbn [bind] in H.
  destruct (coo_mat_vec_mul_update_dense R 0%R 1%R Rplus Rmult Rminus Ropp RTheory kc fb (-1)%R ac K1) as (dm & fb' & ED & EM & LF & HF); [lia|lia|].
  rewrite EM in H. cbn [unwrap bind] in H.
  destruct (solve kb fb') as [ab| |] eqn:ES; try discriminate. cbn [bind] in H. exists ab. split; auto.
  assert (SB := EX kb fb' ab B1 ltac:(congruence) ltac:(congruence) ES). destruct SB as [Lab SB]. split; auto.
  intros i Hi. rewrite SB by auto. rewrite HF by congruence. rewrite rsum_nsum. unfold row.
  rewrite (nsum_ext (c_ncol kc) _ (fun j => entryR (expand (c_sym kc) (coo_triplets kc)) i j * nth j ac 0)%R); [lra|].
  intros j Hj. destruct (coo_as_dense_is R 0%R Rplus kc K1) as (dm' & ED' & DI). rewrite ED in ED'. inversion ED'; subst dm'.
  rewrite (dnum_is R 0%R Rplus dm _ _ _ _ _ DI); auto. congruence.
Qed.

Lemma driver_lmm a : 0 < neq -> solve_lmm R solve lmm vl h = Ok a -> grid_equations a.
Proof using D VAL HL HW EX.
  clear HS HV. intros N0 H. destruct HL as (ex & cc & HL'). destruct (spc_lmm_entries ex cc N0) as (mm & oc & E & B1 & B2 & B3 & B4 & EM & _).
  rewrite E in HL'. destruct HW as (b0 & ff & E2 & LF & _). unfold solve_lmm in H. rewrite HL', E2 in H. cbn [bind] in H.
  destruct (solve mm ff) as [x| |] eqn:ES; try discriminate. cbn [bind] in H. inversion H; subst a; clear H.
  assert (SX := EX mm ff x B1 ltac:(congruence) ltac:(congruence) ES). assert (NE : eq_neq h = neq) by apply D. rewrite NE.
  assert (Lx : length x = neq + eqs_np h) by (destruct SX; congruence).
  assert (Lf : length (firstn neq x) = neq) by (rewrite firstn_length; lia).
  apply (lagrange_grid (firstn neq x) mm oc b0 ff N0 HL' E2 Lf). exists (skipn neq x). rewrite firstn_skipn. split; auto. rewrite skipn_length. lia.
Qed.
End Spc.
