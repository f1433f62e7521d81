(** Theorems about LinSol_Model.v: the protocol of the MUMPS solver (C79). *)
From Verif Require Import Base Sparse_Model Sparse_Spec Sparse_CooProofs LinSol_Model LinSol_Thm.
Local Open Scope string_scope.
Local Open Scope nat_scope.
Local Open Scope list_scope.

Section M.
Variable V : Type.
Variable zero : V.
Variable add : V -> V -> V.
Variable msg : Z -> string.
Variables ana fac det : Type.
Variable det_zero : det.
Variable mkl : bool.
Variable lib_analyze : mctl -> mumat V -> Z * ana.
Variable lib_factor : mctl -> bool -> ana -> mumat V -> Z * fac * det.
Variable lib_msolve : fac -> list V -> Z * list V.

Notation mfact := (mum_factorize V msg ana fac det det_zero mkl lib_analyze lib_factor).
Notation msolve := (mum_solve V msg ana fac det lib_msolve).
Notation mnew := (mum_new ana fac det det_zero).
Notation mum := (mum ana fac det).
Notation total := (total V zero add).

(** ** Specification *)

(** A program using the solver: it creates, changes and drops matrices (objects are numbered), and calls factorize.
    [MFact] of an object which does not exist is not possible in Rust; it is skipped. *)
Inductive mev := MSet (a : nat) (o : option (coo V)) | MFact (a : nat) (p : option params).

(** a call to factorize: the object, its content at that time, the parameters and the result *)
Record mcall := mkCall { mc_obj : nat; mc_mat : coo V; mc_par : option params; mc_res : res unit }.

Fixpoint mrun (mem : memory V) (st : mum) (tr : list mcall) (evs : list mev) : memory V * mum * list mcall :=
  match evs with
  | [] => (mem, st, tr)
  | MSet a o :: evs => mrun (fun b => if b =? a then o else mem b) st tr evs
  | MFact a p :: evs =>
      match mem a with
      | None => mrun mem st tr evs
      | Some m => let '(st', r) := mfact mem st a p in mrun mem st' (mkCall a m p r :: tr) evs
      end
  end.

(** the last call to factorize which returned Ok, the last call being the first of the list *)
Fixpoint mlast_ok (tr : list mcall) : option (coo V) :=
  match tr with
  | [] => None
  | c :: tr => match mc_res c with Ok _ => Some (mc_mat c) | _ => mlast_ok tr end
  end.

(** the matrix that a COO matrix of russell stands for: repeated positions are summed, a triangle is mirrored *)
Definition coo_meaning (m : coo V) : nat -> nat -> V := total (expand (c_sym m) (coo_triplets m)).

(** the matrix that MUMPS reads in its arrays (users' guide, section 5.4.1: repeated positions are summed; with
    SYM = 1 or 2 an entry (i,j) also stands for (j,i), so that giving both adds them) *)
Definition mumps_meaning (mm : mumat V) : nat -> nat -> V :=
  total (expand (if (mm_sym mm =? 0)%Z then SymNo else SymYesLower)
    (combine (combine (map pred (mm_irn mm)) (map pred (mm_jcn mm))) (mm_a mm))).

Variable Sol : nat -> (nat -> nat -> V) -> list V -> list V -> Prop.

Definition same_structure (a b : mumat V) : Prop :=
  mm_sym a = mm_sym b /\ mm_n a = mm_n b /\ mm_irn a = mm_irn b /\ mm_jcn a = mm_jcn b.

(** The promise of the library: after an analysis which succeeded and a factorization of a matrix with the analysed
    structure, a solve which reports success has used a factorization that succeeded, and its answer is a solution. *)
Definition mlib_correct := forall ctl0 mm0 an ctl b mm c f d rhs x,
  lib_analyze ctl0 mm0 = (0%Z, an) -> same_structure mm0 mm ->
  lib_factor ctl b an mm = (c, f, d) ->
  length rhs = mm_n mm ->
  lib_msolve f rhs = (0%Z, x) ->
  c = 0%Z /\ Sol (mm_n mm) (mumps_meaning mm) x rhs.

(** The use for which the solver works: every call to factorize is given the same object, square, with the same
    positions in the same order, and `positive_definite` is not requested for a matrix in full storage. *)
Definition steady (a : nat) (ii jj : list nat) (c : mcall) : Prop :=
  let m := mc_mat c in
  mc_obj c = a /\ coo_valid m /\ c_nrow m = c_ncol m /\
  firstn (c_nnz m) (c_ii m) = ii /\ firstn (c_nnz m) (c_jj m) = jj /\
  (c_sym m = SymNo -> forall p, mc_par c = Some p -> p_positive_definite p = false).

(** ** What MUMPS is given is what the COO matrix stands for *)

Definition mumat_of (sy : Z) (m : coo V) : mumat V :=
  mkMumat sy (c_nrow m) (map (fun i => i + 1) (firstn (c_nnz m) (c_ii m)))
    (map (fun i => i + 1) (firstn (c_nnz m) (c_jj m))) (firstn (c_nnz m) (c_vv m)).

Lemma pred_succ l : map pred (map (fun i => i + 1) l) = l.
Proof. induction l; cbn; f_equal; auto; lia. Qed.

Lemma mumat_meaning m sy : c_sym m = SymNo /\ sy = 0%Z \/ c_sym m = SymYesLower /\ sy = 2%Z ->
  mumps_meaning (mumat_of sy m) = coo_meaning m.
Proof.
  intros H. unfold mumps_meaning, coo_meaning, mumat_of, coo_triplets. cbn [mm_sym mm_irn mm_jcn mm_a].
  rewrite !pred_succ, <- !combine_firstn. destruct H as [[-> ->]|[-> ->]]; reflexivity.
Qed.

(** ** The invariant which holds in every program *)

Definition loose (st : mum) (tr : list mcall) : Prop :=
  (q_initialized st = false -> q_factorized st = false) /\
  (q_initialized st = j_init (q_c st)) /\
  (q_factorized st = true <-> exists m0, mlast_ok tr = Some m0) /\
  (forall m0, mlast_ok tr = Some m0 -> q_sym st = c_sym m0 /\ q_ndim st = c_nrow m0 /\ q_nnz st = c_nnz m0).

Lemma check_first st m p :
  q_initialized st = false ->
  let ok := c_nrow m = c_ncol m /\ 1 <= c_nnz m /\ (c_sym m = SymNo \/ c_sym m = SymYesLower) in
  (~ ok /\ exists e, mum_check V ana fac det st m p = (st, Err e)) \/
  (ok /\ mum_check V ana fac det st m p =
      (mkMum (q_c st) false (q_factorized st) (c_sym m) (c_nrow m) (c_nnz m)
         (map (fun i => i + 1) (firstn (c_nnz m) (c_ii m))) (map (fun i => i + 1) (firstn (c_nnz m) (c_jj m)))
         (q_eao st) (q_det st), Ok tt)).
Proof.
  intros HI ok. unfold mum_check. rewrite HI.
  destruct (Nat.eqb_spec (c_nrow m) (c_ncol m)) as [H1|H1]; cbn [negb].
  2:{ left. unfold ok. split; [tauto|]. eauto. }
  destruct (Nat.ltb_spec (c_nnz m) 1) as [H2|H2].
  { left. unfold ok. split; [lia|]. eauto. }
  unfold ok. destruct (c_sym m); cbn [sym_eqb orb].
  - right. auto.
  - left. split; [intros (_ & _ & [A|A]); discriminate|eauto].
  - right. auto.
  - left. split; [intros (_ & _ & [A|A]); discriminate|eauto].
Qed.

Lemma check_next st m p :
  q_initialized st = true ->
  let ok := c_sym m = q_sym st /\ c_nrow m = q_ndim st /\ c_nnz m = q_nnz st /\ p = None in
  (~ ok /\ exists e, mum_check V ana fac det st m p = (st, Err e)) \/
  (ok /\ mum_check V ana fac det st m p = (st, Ok tt)).
Proof.
  intros HI ok. unfold mum_check, ok. rewrite HI.
  destruct (sym_eqb_spec (c_sym m) (q_sym st)) as [H1|H1]; cbn [negb].
  2:{ left. split; [tauto|]. eauto. }
  destruct (Nat.eqb_spec (c_nrow m) (q_ndim st)) as [H2|H2]; cbn [negb].
  2:{ left. split; [tauto|]. eauto. }
  destruct (Nat.eqb_spec (c_nnz m) (q_nnz st)) as [H3|H3]; cbn [negb].
  2:{ left. split; [tauto|]. eauto. }
  destruct p as [p|].
  - left. split; [intros (_ & _ & _ & A); discriminate|]. eauto.
  - right. auto.
Qed.

Lemma loose_step mem st tr a m p st' r :
  loose st tr -> mem a = Some m -> mfact mem st a p = (st', r) -> loose st' (mkCall a m p r :: tr).
Proof.
  intros (L1 & L2 & L3 & L4) Ha E. unfold mum_factorize in E. rewrite Ha in E.
  destruct (q_initialized st) eqn:HI.
  - destruct (check_next st m p HI) as [(_ & e & Ec)|((A1 & A2 & A3 & ->) & Ec)]; rewrite Ec in E.
    { inversion E; subst st' r. unfold loose. cbn [mlast_ok mc_res]. rewrite HI. splits; auto. }
    cbn [q_c q_initialized q_factorized q_sym q_ndim q_nnz q_ii q_jj q_eao q_det] in E.
    set (eao := if p_compute_condition_numbers _ then _ else _) in E.
    destruct (negb _) eqn:Hf in E.
    { inversion E; subst st' r. unfold loose. cbn. rewrite HI. splits; auto. }
    rewrite HI in E. cbv iota in E. change (negb (0 =? 0)%Z) with false in E. cbv iota in E.
    unfold c_mum_factorize in E. rewrite <- L2 in E. cbn [negb params_new p_compute_determinant] in E.
    destruct (mum_read V ana fac mem (q_c st)) as [mm|]; [destruct (j_ana (q_c st)) as [an|]|].
    + destruct (lib_factor (j_ctl (q_c st)) false an mm) as [[c f] d].
      destruct (Z.eqb_spec c 0) as [Hc|Hc]; cbn [negb] in E; inversion E; subst st' r; unfold loose; cbn.
      * splits; auto; try congruence. { split; eauto. } intros m0 Hm. inversion Hm; subst. auto.
      * splits; auto; congruence.
    + inversion E; subst st' r; unfold loose; cbn. splits; auto; congruence.
    + inversion E; subst st' r; unfold loose; cbn. splits; auto; congruence.
  - assert (HF : q_factorized st = false) by auto.
    assert (HN : mlast_ok tr = None).
    { destruct (mlast_ok tr) as [m0|]; auto. exfalso. assert (q_factorized st = true) by (apply L3; eauto). congruence. }
    destruct (check_first st m p HI) as [(_ & e & Ec)|((A1 & A2 & A3) & Ec)]; rewrite Ec in E.
    { inversion E; subst st' r. unfold loose. cbn [mlast_ok mc_res]. rewrite HI. splits; auto. }
    cbn [q_c q_initialized q_factorized q_sym q_ndim q_nnz q_ii q_jj q_eao q_det] in E.
    set (par := match p with Some p => p | None => params_new end) in E.
    set (eao := if p_compute_condition_numbers _ then _ else _) in E.
    set (own := mkl || _ || _) in E.
    destruct (negb _) eqn:Hf in E.
    { inversion E; subst st' r. unfold loose. cbn. splits; auto; congruence. }
    unfold c_mum_initialize in E. rewrite <- L2 in E.
    set (j1 := mkCmum _ _ _ _ _ _ _ _ _ _ _) in E.
    set (ctl := mkMctl _ _ _ _ _) in *.
    destruct (mum_read V ana fac mem j1) as [mm|].
    2:{ inversion E; subst st' r. unfold loose, j1. cbn. splits; auto; congruence. }
    destruct (lib_analyze ctl mm) as [code an].
    destruct (Z.eqb_spec code 0) as [->|Hcode].
    2:{ destruct (Z.eqb_spec code 0); [contradiction|]. cbn [negb] in E.
        inversion E; subst st' r. unfold loose, j1. cbn. splits; auto; congruence. }
    change (negb (0 =? 0)%Z) with false in E. cbv iota in E.
    unfold c_mum_factorize in E. cbn [j_init negb j_ana j_ctl] in E.
    match type of E with context [mum_read V ana fac mem ?j] => destruct (mum_read V ana fac mem j) as [mm'|] end.
    + match type of E with context [lib_factor ?x ?y ?z ?w] => destruct (lib_factor x y z w) as [[c f] d] end.
      destruct (Z.eqb_spec c 0) as [Hc|Hc]; cbn [negb] in E; inversion E; subst st' r; unfold loose; cbn.
      * splits; auto; try congruence. { split; eauto. } intros m0 Hm. inversion Hm; subst. auto.
      * splits; auto; congruence.
    + inversion E; subst st' r; unfold loose; cbn. splits; auto; congruence.
Qed.

Lemma loose_run evs : forall mem st tr mem' st' tr',
  loose st tr -> mrun mem st tr evs = (mem', st', tr') -> loose st' tr'.
Proof.
  induction evs as [|[a o|a p] evs IH]; intros mem st tr mem' st' tr' HL E; cbn [mrun] in E.
  - inversion E; subst. auto.
  - eauto.
  - destruct (mem a) as [m|] eqn:Ha; [|eauto].
    destruct (mfact mem st a p) as [st1 r] eqn:Ef. eapply IH; [|exact E]. eapply loose_step; eauto.
Qed.

Lemma loose_new : loose mnew [].
Proof. unfold loose. cbn. splits; auto; try discriminate. split; [discriminate|]. intros [m H]. discriminate. Qed.

(** ** The invariant of the steady use *)

Definition sym_code (s : sym) (k : Z) : Prop := s = SymNo /\ k = 0%Z \/ s = SymYesLower /\ k = 2%Z.

Definition tight (a : nat) (ii jj : list nat) (st : mum) (tr : list mcall) : Prop :=
  let j := q_c st in
  (q_initialized st = false /\ q_factorized st = false /\ j_init j = false /\ j_fact j = false) \/
  (q_initialized st = true /\ j_init j = true /\ j_fact j = true /\ j_a j = a /\
   j_irn j = map (fun i => i + 1) ii /\ j_jcn j = map (fun i => i + 1) jj /\ j_n j = q_ndim st /\ j_nz j = q_nnz st /\
   fits_i32 (q_ndim st) = true /\ fits_i32 (q_nnz st) = true /\ sym_code (q_sym st) (j_sym j) /\
   exists an ctl0 mm0 m c ctl b f d, j_ana j = Some an /\ lib_analyze ctl0 mm0 = (0%Z, an) /\
     same_structure mm0 (mumat_of (j_sym j) m) /\ lib_factor ctl b an (mumat_of (j_sym j) m) = (c, f, d) /\
     j_fac j = Some f /\ c_sym m = q_sym st /\ c_nrow m = q_ndim st /\ c_nrow m = c_ncol m /\ c_nnz m = q_nnz st /\
     firstn (c_nnz m) (c_ii m) = ii /\ firstn (c_nnz m) (c_jj m) = jj /\
     (q_factorized st = true -> c = 0%Z -> mlast_ok tr = Some m)).

Lemma tight_step mem a ii jj st tr m p st' r :
  tight a ii jj st tr -> mem a = Some m -> mfact mem st a p = (st', r) ->
  steady a ii jj (mkCall a m p r) -> tight a ii jj st' (mkCall a m p r :: tr).
Proof.
  intros HT Ha E HS. destruct HS as (_ & HV & Hsq & Hii & Hjj & Hpd). cbn [mc_mat mc_par] in *.
  unfold mum_factorize in E. rewrite Ha in E.
  destruct HT as [(HI & HF & J1 & J2)|(HI & J1 & J2 & J3 & J4 & J5 & J6 & J7 & F1 & F2 & Hsy & an & ctl0 & mm0 & m1 & c & ctl & b & f & d & K1 & K2 & K3 & K4 & K5 & K6 & K7 & K8 & K9 & K10 & K11 & K12)].
  - destruct (check_first st m p HI) as [(_ & e & Ec)|((A1 & A2 & A3) & Ec)]; rewrite Ec in E.
    { inversion E; subst st' r. left. auto. }
    cbn [q_c q_initialized q_factorized q_sym q_ndim q_nnz q_ii q_jj q_eao q_det] in E.
    set (par := match p with Some p => p | None => params_new end) in E.
    assert (Hpar : c_sym m = SymNo -> p_positive_definite par = false).
    { intros Hs. unfold par. destruct p as [p|]; [eauto|reflexivity]. }
    set (eao := if p_compute_condition_numbers _ then _ else _) in E.
    set (own := mkl || _ || _) in E.
    destruct (negb _) eqn:Hf in E.
    { inversion E; subst st' r. left. cbn. auto. }
    apply negb_false_iff in Hf. apply andb_prop in Hf. destruct Hf as [Hf Hf5].
    apply andb_prop in Hf. destruct Hf as [Hf Hf4].
    unfold c_mum_initialize in E. rewrite J1 in E.
    set (sy := if sym_eqb (c_sym m) SymYesLower then 2%Z else if p_positive_definite par then 1%Z else 0%Z) in E.
    assert (Hsy : sym_code (c_sym m) sy).
    { unfold sym_code, sy. destruct A3 as [A3|A3]; rewrite A3; cbn [sym_eqb]; [rewrite (Hpar A3)|]; auto. }
    set (ctl := mkMctl _ _ _ _ _) in *.
    set (j1 := mkCmum ctl sy _ _ _ _ _ _ _ _ _) in E.
    assert (Hr : mum_read V ana fac mem j1 = Some (mumat_of sy m)).
    { unfold mum_read, j1. cbn [j_a j_sym j_n j_irn j_jcn j_nz]. now rewrite Ha. }
    rewrite Hr in E.
    destruct (lib_analyze ctl (mumat_of sy m)) as [code an] eqn:Ean.
    destruct (Z.eqb_spec code 0) as [->|Hcode].
    2:{ destruct (Z.eqb_spec code 0); [contradiction|]. cbn [negb] in E.
        inversion E; subst st' r. left. unfold j1. cbn. auto. }
    change (negb (0 =? 0)%Z) with false in E. cbv iota in E.
    unfold c_mum_factorize in E. cbn [j_init negb j_ana j_ctl] in E.
    set (j2 := mkCmum ctl sy _ _ _ _ _ _ _ true _) in E.
    assert (Hr2 : mum_read V ana fac mem j2 = Some (mumat_of sy m)).
    { unfold mum_read, j2. cbn [j_a j_sym j_n j_irn j_jcn j_nz]. now rewrite Ha. }
    rewrite Hr2 in E.
    set (ctl2 := if p_compute_determinant par then _ else _) in E.
    destruct (lib_factor ctl2 (p_compute_determinant par) an (mumat_of sy m)) as [[c f] d] eqn:Efa.
    right. destruct (Z.eqb_spec c 0) as [Hc|Hc]; cbn [negb] in E; inversion E; subst st' r; unfold j2; cbn;
      (splits; auto; try congruence;
       exists an, ctl, (mumat_of sy m), m, c, ctl2, (p_compute_determinant par), f, d;
       splits; auto; try congruence; unfold same_structure; auto).
  - destruct (check_next st m p HI) as [(_ & e & Ec)|((A1 & A2 & A3 & ->) & Ec)]; rewrite Ec in E.
    { inversion E; subst st' r. right. cbn [mlast_ok mc_res]. splits; auto.
      exists an, ctl0, mm0, m1, c, ctl, b, f, d. splits; auto. }
    cbn [q_c q_initialized q_factorized q_sym q_ndim q_nnz q_ii q_jj q_eao q_det params_new
         p_compute_condition_numbers p_compute_error_estimates p_num_threads p_override_nt p_pct_inc_workspace
         p_max_work_memory p_ordering p_scaling p_positive_definite p_compute_determinant] in E.
    rewrite A2, A3, F1, F2 in E.
    assert (H100 : fits_i32 100 = true) by reflexivity. assert (H0 : fits_i32 0 = true) by reflexivity.
    rewrite H100, H0 in E.
    assert (Hown : (if mkl || negb (0 =? 0) || false then true else true) = true) by (destruct (_ || _); reflexivity).
    rewrite Hown in E. cbn [andb negb] in E.
    rewrite HI in E. cbv iota in E. change (negb (0 =? 0)%Z) with false in E. cbv iota in E.
    unfold c_mum_factorize in E. rewrite J1 in E. cbn [negb] in E.
    assert (Hr : mum_read V ana fac mem (q_c st) = Some (mumat_of (j_sym (q_c st)) m)).
    { unfold mum_read, mumat_of. rewrite J3, Ha, J4, J5, J6, J7, Hii, Hjj, A2, A3. reflexivity. }
    rewrite Hr, K1 in E.
    destruct (lib_factor (j_ctl (q_c st)) false an (mumat_of (j_sym (q_c st)) m)) as [[c' f'] d'] eqn:Efa.
    assert (Hst : same_structure mm0 (mumat_of (j_sym (q_c st)) m)).
    { destruct K3 as (S1 & S2 & S3 & S4). unfold same_structure, mumat_of in *. cbn [mm_sym mm_n mm_irn mm_jcn] in *.
      splits; congruence. }
    right. destruct (Z.eqb_spec c' 0) as [Hc|Hc]; cbn [negb] in E; inversion E; subst st' r; cbn;
      (splits; auto; try congruence;
       exists an, ctl0, mm0, m, c', (j_ctl (q_c st)), false, f', d';
       splits; auto; congruence).
Qed.

Lemma tight_run a ii jj evs : forall mem st tr mem' st' tr',
  tight a ii jj st tr -> mrun mem st tr evs = (mem', st', tr') -> Forall (steady a ii jj) tr' -> tight a ii jj st' tr'.
Proof.
  assert (Hmono : forall evs mem st tr mem' st' tr', mrun mem st tr evs = (mem', st', tr') -> exists l, tr' = l ++ tr).
  { clear evs. induction evs as [|[b o|b p] evs IH]; intros mem st tr mem' st' tr' E; cbn [mrun] in E.
    - inversion E; subst. exists []. reflexivity.
    - eauto.
    - destruct (mem b) as [m|]; [|eauto]. destruct (mfact mem st b p) as [st1 r].
      destruct (IH _ _ _ _ _ _ E) as [l ->]. exists (l ++ [mkCall b m p r]). now rewrite <- app_assoc. }
  induction evs as [|[b o|b p] evs IH]; intros mem st tr mem' st' tr' HT E HS; cbn [mrun] in E.
  - inversion E; subst. auto.
  - eauto.
  - destruct (mem b) as [m|] eqn:Hb; [|eauto].
    destruct (mfact mem st b p) as [st1 r] eqn:Ef. eapply IH; [|exact E|exact HS].
    destruct (Hmono _ _ _ _ _ _ _ E) as [l ->].
    apply Forall_app in HS. destruct HS as [_ HS]. inversion HS as [|? ? Hc _]; subst.
    assert (b = a) by (destruct Hc as [Hc _]; exact Hc). subst b. eapply tight_step; eauto.
Qed.

Lemma tight_new a ii jj : tight a ii jj mnew [].
Proof. left. cbn. auto. Qed.

(** ** Main theorems *)

(** In the steady use, and with a correct library: when solve succeeds, some call to factorize has succeeded, the
    vectors have its dimension, and the answer is a solution of the system of the matrix as it was at the last
    successful call, whatever has been written into the object since. *)
Theorem C79_solution mem0 evs mem st tr a ii jj x rhs x' :
  mlib_correct ->
  mrun mem0 mnew [] evs = (mem, st, tr) ->
  Forall (steady a ii jj) tr ->
  msolve mem st x rhs = (x', Ok tt) ->
  exists m, mlast_ok tr = Some m /\ length x = c_nrow m /\ length rhs = c_nrow m /\
    Sol (c_nrow m) (coo_meaning m) x' rhs.
Proof.
  intros HL ER HS ES. pose proof (tight_run a ii jj evs _ _ _ _ _ _ (tight_new a ii jj) ER HS) as HT.
  unfold mum_solve in ES.
  destruct HT as [(HI & HF & J1 & J2)|(HI & J1 & J2 & J3 & J4 & J5 & J6 & J7 & F1 & F2 & Hsy & an & ctl0 & mm0 & m1 & c & ctl & b & f & d & K1 & K2 & K3 & K4 & K5 & K6 & K7 & K8 & K9 & K10 & K11 & K12)].
  { rewrite HF in ES. discriminate. }
  destruct (q_factorized st); cbn [negb] in ES; [|discriminate].
  destruct (Nat.eqb_spec (length x) (q_ndim st)) as [Hx|]; cbn [negb] in ES; [|discriminate].
  destruct (Nat.eqb_spec (length rhs) (q_ndim st)) as [Hr|]; cbn [negb] in ES; [|discriminate].
  unfold c_mum_solve in ES. rewrite J2, K5 in ES. cbn [negb] in ES.
  destruct (if (0 <? q_eao st)%Z then _ else _); [|discriminate].
  destruct (lib_msolve f rhs) as [code y] eqn:Es.
  destruct (Z.eqb_spec code 0) as [->|]; cbn [negb] in ES; [|discriminate]. inversion ES; subst y.
  assert (Hr' : length rhs = mm_n (mumat_of (j_sym (q_c st)) m1)) by (cbn; congruence).
  destruct (HL _ _ _ _ _ _ _ _ _ _ _ K2 K3 K4 Hr' Es) as [Hc Hsol].
  exists m1. splits; auto; try congruence. cbn [mumat_of mm_n] in Hsol.
  rewrite mumat_meaning in Hsol; [exact Hsol|]. unfold sym_code in Hsy. rewrite K6. exact Hsy.
Qed.

(** Every program: without a successful call to factorize, or with vectors of another size, solve refuses and leaves x
    as it was. *)
Theorem C79_solve_refused mem0 evs mem st tr x rhs :
  mrun mem0 mnew [] evs = (mem, st, tr) ->
  match mlast_ok tr with
  | None => exists e, msolve mem st x rhs = (x, Err e)
  | Some m => length x <> c_nrow m \/ length rhs <> c_nrow m -> exists e, msolve mem st x rhs = (x, Err e)
  end.
Proof.
  intros ER. destruct (loose_run _ _ _ _ _ _ _ loose_new ER) as (L1 & L2 & L3 & L4). unfold mum_solve.
  destruct (mlast_ok tr) as [m0|].
  - intros HX. destruct (L4 m0 eq_refl) as (_ & B & _). rewrite <- B in HX.
    assert (Hf : q_factorized st = true) by (apply L3; eauto). rewrite Hf. cbn [negb].
    destruct (Nat.eqb_spec (length x) (q_ndim st)); cbn [negb]; [|eauto].
    destruct (Nat.eqb_spec (length rhs) (q_ndim st)); cbn [negb]; [|eauto]. tauto.
  - assert (Hf : q_factorized st = false).
    { destruct (q_factorized st); auto. destruct (proj1 L3 eq_refl) as [m0 H]. discriminate. }
    rewrite Hf. cbn [negb]. eauto.
Qed.

(** Every program: the calls which factorize itself refuses, and what they change (nothing). *)
Theorem C79_call_refused mem0 evs mem st tr a m p :
  mrun mem0 mnew [] evs = (mem, st, tr) -> mem a = Some m ->
  match mlast_ok tr with
  | None =>
      st = mnew ->
      ~ (c_nrow m = c_ncol m /\ 1 <= c_nnz m /\ (c_sym m = SymNo \/ c_sym m = SymYesLower)) ->
      exists e, mfact mem st a p = (st, Err e)
  | Some m0 =>
      ~ (c_sym m = c_sym m0 /\ c_nrow m = c_nrow m0 /\ c_nnz m = c_nnz m0 /\ p = None) ->
      exists e, mfact mem st a p = (st, Err e)
  end.
Proof.
  intros ER Ha. destruct (loose_run _ _ _ _ _ _ _ loose_new ER) as (L1 & L2 & L3 & L4). unfold mum_factorize. rewrite Ha.
  destruct (mlast_ok tr) as [m0|].
  - intros HX. destruct (L4 m0 eq_refl) as (B1 & B2 & B3).
    assert (HI : q_initialized st = true).
    { destruct (q_initialized st); auto. assert (q_factorized st = true) by (apply L3; eauto). rewrite L1 in H; auto. }
    destruct (check_next st m p HI) as [(_ & e & Ec)|((A1 & A2 & A3 & A4) & _)].
    + rewrite Ec. eauto.
    + exfalso. apply HX. splits; congruence.
  - intros -> HX. destruct (check_first mnew m p eq_refl) as [(_ & e & Ec)|(HA & _)]; [|tauto]. rewrite Ec. eauto.
Qed.

(** In the steady use nothing panics (and freed memory is not read), as long as sizes fit i32, and for a solve with
    error analysis the object is still there. *)
Theorem C79_no_panic mem0 evs mem st tr a ii jj m p x rhs :
  mrun mem0 mnew [] evs = (mem, st, tr) ->
  Forall (steady a ii jj) tr -> mem a = Some m ->
  fits_i32 (c_nrow m) = true -> fits_i32 (c_nnz m) = true ->
  (forall q, p = Some q -> fits_i32 (p_pct_inc_workspace q) = true /\ fits_i32 (p_max_work_memory q) = true /\
     fits_i32 (p_num_threads q) = true) ->
  snd (mfact mem st a p) <> Panic /\ snd (msolve mem st x rhs) <> Panic.
Proof.
  intros ER HS Ha Hn Hz Hp. pose proof (tight_run a ii jj evs _ _ _ _ _ _ (tight_new a ii jj) ER HS) as HT.
  assert (Hq : forall q, q = match p with Some p => p | None => params_new end ->
     fits_i32 (p_pct_inc_workspace q) = true /\ fits_i32 (p_max_work_memory q) = true /\ fits_i32 (p_num_threads q) = true).
  { intros q ->. destruct p as [p|]; [auto|]. splits; reflexivity. }
  destruct HT as [(HI & HF & J1 & J2)|(HI & J1 & J2 & J3 & J4 & J5 & J6 & J7 & F1 & F2 & Hsy & an & ctl0 & mm0 & m1 & c & ctl & b & f & d & K1 & K2 & K3 & K4 & K5 & K6 & K7 & K8 & K9 & K10 & K11 & K12)];
    split; unfold mum_factorize, mum_solve; rewrite ?Ha.
  - destruct (check_first st m p HI) as [(_ & e & Ec)|(_ & Ec)]; rewrite Ec; [discriminate|].
    cbn [q_c q_initialized q_factorized q_sym q_ndim q_nnz q_ii q_jj q_eao q_det].
    set (par := match p with Some p => p | None => params_new end).
    destruct (Hq par eq_refl) as (Q1 & Q2 & Q3). rewrite Hn, Hz, Q1, Q2, Q3.
    replace (if mkl || negb (p_num_threads par =? 0) || p_override_nt par then true else true) with true
      by (destruct (_ || _); reflexivity). cbn [andb negb].
    unfold c_mum_initialize, mum_read. rewrite J1. cbn [j_a]. rewrite Ha.
    match goal with |- context [lib_analyze ?x ?y] => destruct (lib_analyze x y) as [code an] end.
    destruct (Z.eqb_spec code 0) as [->|Hcode].
    2:{ destruct (Z.eqb_spec code 0); [contradiction|]. cbn [negb snd]. discriminate. }
    change (negb (0 =? 0)%Z) with false. cbv iota.
    unfold c_mum_factorize, mum_read. cbn [j_init negb j_ana j_ctl j_a]. rewrite Ha.
    match goal with |- context [lib_factor ?x ?y ?z ?w] => destruct (lib_factor x y z w) as [[c f] d] end.
    destruct (c =? 0)%Z; cbn [negb snd]; discriminate.
  - rewrite HF. discriminate.
  - destruct (check_next st m p HI) as [(_ & e & Ec)|((A1 & A2 & A3 & ->) & Ec)]; rewrite Ec; [discriminate|].
    destruct (Hq params_new eq_refl) as (Q1 & Q2 & Q3). rewrite Hn, Hz, Q1, Q2, Q3.
    replace (if mkl || negb (p_num_threads params_new =? 0) || p_override_nt params_new then true else true) with true
      by (destruct (_ || _); reflexivity). cbn [andb negb].
    cbn [q_c q_initialized]. rewrite HI. change (negb (0 =? 0)%Z) with false. cbv iota.
    unfold c_mum_factorize, mum_read. rewrite J1, J3, Ha, K1. cbn [negb].
    match goal with |- context [lib_factor ?x ?y ?z ?w] => destruct (lib_factor x y z w) as [[c' f'] d'] end.
    destruct (c' =? 0)%Z; cbn [negb snd]; discriminate.
  - destruct (q_factorized st); cbn [negb snd]; [|discriminate].
    destruct (length x =? q_ndim st); cbn [negb snd]; [|discriminate].
    destruct (length rhs =? q_ndim st); cbn [negb snd]; [|discriminate].
    unfold c_mum_solve, mum_read. rewrite J2, J3, Ha, K5. cbn [negb].
    destruct (0 <? q_eao st)%Z; destruct (lib_msolve f rhs) as [code y]; destruct (code =? 0)%Z; cbn [negb snd]; discriminate.
Qed.

End M.

(* ------------------------------------------------------------------ *)
(** * A library for exact integers, examples and refutations *)

(** the factors are the matrix itself; [zdetm] is its determinant for sizes 1 and 2 *)
Definition zmean (mm : mumat Z) := mumps_meaning Z 0%Z Z.add mm.
Definition zdetm (mm : mumat Z) : Z :=
  match mm_n mm with
  | 1 => zmean mm 0 0
  | 2 => (zmean mm 0 0 * zmean mm 1 1 - zmean mm 0 1 * zmean mm 1 0)%Z
  | _ => 1%Z
  end.
Definition zanalyze (_ : mctl) (_ : mumat Z) : Z * unit := (0%Z, tt).
Definition zfactor (_ : mctl) (_ : bool) (_ : unit) (mm : mumat Z) : Z * mumat Z * Z :=
  (if (zdetm mm =? 0)%Z then (-10)%Z else 0%Z, mm, zdetm mm).
Definition zmsolve (f : mumat Z) (rhs : list Z) : Z * list Z :=
  if (zdetm f =? 0)%Z then ((-3)%Z, rhs)
  else match find (fun y => zsolb (mm_n f) (zmean f) y rhs) (candidates (mm_n f)) with
       | Some y => (0%Z, y)
       | None => ((-1)%Z, rhs)
       end.

Lemma zmlib_correct : mlib_correct Z 0%Z Z.add unit (mumat Z) Z zanalyze zfactor zmsolve zsol.
Proof.
  intros ctl0 mm0 an ctl b mm c f d rhs x _ _ Ef Hr Es. unfold zfactor in Ef. unfold zmsolve in Es.
  inversion Ef; subst f. destruct (zdetm mm =? 0)%Z; [discriminate|]. subst c. split; [reflexivity|].
  destruct (find _ _) as [y|] eqn:E; [|discriminate]. inversion Es; subst y.
  apply find_some in E. now apply zsolb_ok.
Qed.

Definition zmrun := mrun Z zmsg unit (mumat Z) Z 0%Z false zanalyze zfactor.
Definition zmnew := mum_new unit (mumat Z) Z 0%Z.
Definition zmum_solve := mum_solve Z zmsg unit (mumat Z) Z zmsolve.
Definition empty_mem : memory Z := fun _ => None.
Definition z_outcome (evs : list (mev Z)) (x rhs : list Z) :=
  let '(mem, st, tr) := zmrun empty_mem zmnew [] evs in
  (map (mc_res Z) (rev tr), zmum_solve mem st x rhs).

(** the steady use: factorize, write new values into the same object, factorize again; the answer belongs to the
    new values *)
Definition steady_use : list (mev Z) :=
  [MSet Z 0 (Some coo_a); MFact Z 0 None; MSet Z 0 (Some coo_b); MFact Z 0 None; MSet Z 0 (Some coo_a)].
Example C79_example :
  z_outcome steady_use [0; 0]%Z [1; -2]%Z = ([Ok tt; Ok tt], ([0; -1]%Z, Ok tt)) /\
  Forall (steady Z 0 [0; 0; 1; 1] [0; 1; 1; 1]) (snd (zmrun empty_mem zmnew [] steady_use)) /\
  mlast_ok Z (snd (zmrun empty_mem zmnew [] steady_use)) = Some coo_b /\
  zsol 2 (coo_meaning Z 0%Z Z.add coo_b) [0; -1]%Z [1; -2]%Z.
Proof.
  splits.
  - vm_compute; reflexivity.
  - replace (snd (zmrun empty_mem zmnew [] steady_use)) with [mkCall Z 0 coo_b None (Ok tt); mkCall Z 0 coo_a None (Ok tt)]
      by (vm_compute; reflexivity).
    constructor; [|constructor; [|constructor]]; unfold steady; cbn; splits; auto; try discriminate.
    + apply coo_b_valid.
    + apply coo_a_valid.
  - vm_compute; reflexivity.
  - apply zsolb_ok. vm_compute; reflexivity.
Qed.

Lemma zsol_no n A x b i : i < n -> (zsum n A x i =? nth i b 0)%Z = false -> ~ zsol n A x b.
Proof. intros Hi H [_ H2]. apply Z.eqb_neq in H. apply H. auto. Qed.

(** FINDING: MUMPS keeps the pointer to the values of the first matrix: when factorize is called with another matrix
    of the same kind and size it succeeds, but the factors (and the following answers) are those of the first object. *)
Definition other_object : list (mev Z) :=
  [MSet Z 0 (Some coo_a); MSet Z 1 (Some coo_b); MFact Z 0 None; MFact Z 1 None].
Theorem C79_other_object_refuted :
  z_outcome other_object [0; 0]%Z [5; 1]%Z = ([Ok tt; Ok tt], ([2; 1]%Z, Ok tt)) /\
  mlast_ok Z (snd (zmrun empty_mem zmnew [] other_object)) = Some coo_b /\
  ~ zsol 2 (coo_meaning Z 0%Z Z.add coo_b) [2; 1]%Z [5; 1]%Z.
Proof.
  splits; try (vm_compute; reflexivity).
  apply (zsol_no _ _ _ _ 0); [lia|]. vm_compute; reflexivity.
Qed.

(** FINDING: when that first matrix has been dropped, the second call reads freed memory (the model stops). *)
Theorem C79_dropped_object_refuted :
  z_outcome [MSet Z 0 (Some coo_a); MFact Z 0 None; MSet Z 1 (Some coo_b); MSet Z 0 None; MFact Z 1 None] [0; 0]%Z [5; 1]%Z
    = ([Ok tt; Panic], ([2; 1]%Z, Ok tt)).
Proof. vm_compute; reflexivity. Qed.

(** FINDING: the positions are those of the first call: an object refilled in another order is factorized with its new
    values at the old positions. Here the same matrix diag(1,2) is put in the two orders. *)
Definition coo_12 : coo Z := mkCoo SymNo 2 2 2 2 [0; 1] [0; 1] [1; 2]%Z.
Definition coo_21 : coo Z := mkCoo SymNo 2 2 2 2 [1; 0] [1; 0] [2; 1]%Z.
Definition reordered : list (mev Z) :=
  [MSet Z 0 (Some coo_12); MFact Z 0 None; MSet Z 0 (Some coo_21); MFact Z 0 None].
Theorem C79_other_positions_refuted :
  (forall i j, i < 2 -> j < 2 -> coo_meaning Z 0%Z Z.add coo_21 i j = coo_meaning Z 0%Z Z.add coo_12 i j) /\
  z_outcome reordered [0; 0]%Z [2; 2]%Z = ([Ok tt; Ok tt], ([1; 2]%Z, Ok tt)) /\
  mlast_ok Z (snd (zmrun empty_mem zmnew [] reordered)) = Some coo_21 /\
  ~ zsol 2 (coo_meaning Z 0%Z Z.add coo_21) [1; 2]%Z [2; 2]%Z.
Proof.
  splits; try (vm_compute; reflexivity).
  - intros i j Hi Hj. destruct i as [|[|i]]; try lia; destruct j as [|[|j]]; try lia; vm_compute; reflexivity.
  - apply (zsol_no _ _ _ _ 0); [lia|]. vm_compute; reflexivity.
Qed.

(** FINDING: a positive definite symmetric matrix in full storage ([Sym::No]) with `positive_definite` is passed to
    MUMPS with SYM = 1, which adds the two halves: the off-diagonal entries of the system are doubled. *)
Definition coo_spd : coo Z := mkCoo SymNo 2 2 4 4 [0; 0; 1; 1] [0; 1; 0; 1] [3; 1; 1; 3]%Z.
Definition spd_params : params := mkParams OAuto ScAuto true false false false 100 0 0 false false.
Definition spd_use (p : option params) : list (mev Z) := [MSet Z 0 (Some coo_spd); MFact Z 0 p].
Theorem C79_positive_definite_refuted :
  z_outcome (spd_use None) [0; 0]%Z [4; 4]%Z = ([Ok tt], ([1; 1]%Z, Ok tt)) /\
  z_outcome (spd_use (Some spd_params)) [0; 0]%Z [5; 5]%Z = ([Ok tt], ([1; 1]%Z, Ok tt)) /\
  zsol 2 (coo_meaning Z 0%Z Z.add coo_spd) [1; 1]%Z [4; 4]%Z /\
  ~ zsol 2 (coo_meaning Z 0%Z Z.add coo_spd) [1; 1]%Z [5; 5]%Z.
Proof.
  splits; try (vm_compute; reflexivity).
  - apply zsolb_ok; vm_compute; reflexivity.
  - apply (zsol_no _ _ _ _ 0); [lia|]. vm_compute; reflexivity.
Qed.

(** FINDING: only the number of rows is compared in later calls: a rectangular matrix is accepted. *)
Definition coo_rect : coo Z := mkCoo SymNo 2 3 4 4 [0; 0; 1; 1] [0; 2; 1; 2] [1; -1; 1; 1]%Z.
Theorem C79_square_refuted :
  coo_valid coo_rect /\ c_nrow coo_rect <> c_ncol coo_rect /\
  z_outcome [MSet Z 0 (Some coo_a); MFact Z 0 None; MSet Z 0 (Some coo_rect); MFact Z 0 None] [0; 0]%Z [1; -2]%Z
    = ([Ok tt; Ok tt], ([0; -1]%Z, Ok tt)).
Proof. splits; [coo_check|discriminate|vm_compute; reflexivity]. Qed.

(** FINDING: as with UMFPACK, the determinant is lost at the second factorization. *)
Definition det_use : list (mev Z) := [MSet Z 0 (Some (coo1 5)); MFact Z 0 (Some want_det); MFact Z 0 None].
Definition det_after (n : nat) : Z := q_det (snd (fst (zmrun empty_mem zmnew [] (firstn n det_use)))).
Theorem C79_determinant_kept_refuted : det_after 2 = 5%Z /\ det_after 3 = 0%Z.
Proof. split; vm_compute; reflexivity. Qed.

Print Assumptions C79_solution.
Print Assumptions C79_no_panic.
