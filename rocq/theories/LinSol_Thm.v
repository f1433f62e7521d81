(** Theorems about LinSol_Model.v: the protocol of the UMFPACK solver (C78). *)
From Verif Require Import Base Sparse_Model Sparse_Spec Sparse_CooProofs Sparse_Lib Sparse_Compressed Sparse_CscProofs Sparse_Ops LinSol_Model.
Local Open Scope string_scope.
Local Open Scope nat_scope.
Local Open Scope list_scope.

Section U.
Variable V : Type.
Variable zero : V.
Variable add : V -> V -> V.
Variable msg : Z -> string.
Variables symb num det : Type.
Variable det_zero : det.
Variable lib_symbolic : uctl -> Z -> csc V -> Z * option symb.
Variable lib_numeric : uctl -> csc V -> option symb -> Z * option num.
Variable lib_determinant : option num -> Z * det.
Variable lib_solve : uctl -> csc V -> option num -> list V -> list V -> Z * list V.

Notation ufact := (umf_factorize V zero add msg symb num det det_zero lib_symbolic lib_numeric lib_determinant).
Notation usolve := (umf_solve V msg symb num det lib_solve).
Notation unew := (umf_new V symb num det det_zero).
Notation ucompute := (umf_compute V zero add msg symb num det det_zero lib_symbolic lib_numeric lib_determinant lib_solve).
Notation umf := (umf V symb num det).

(** ** Specification *)

(** the matrix of a list of triplets: repeated positions are summed *)
Definition total (ts : list (nat * nat * V)) (i j : nat) : V := sum1 V zero add (vals_at ts i j).

(** A program using the solver: a sequence of calls to factorize (solve and update_stats do not change the solver).
    The trace is the list of calls with their results, the last one first. *)
Definition call := (coo V * option params)%type.
Fixpoint run (st : umf) (tr : list (coo V * res unit)) (cs : list call) : umf * list (coo V * res unit) :=
  match cs with
  | [] => (st, tr)
  | (m, p) :: cs => let '(st', r) := ufact st m p in run st' ((m, r) :: tr) cs
  end.

(** the matrix of the last call to factorize which returned Ok *)
Fixpoint last_ok (tr : list (coo V * res unit)) : option (coo V) :=
  match tr with
  | [] => None
  | (m, Ok _) :: _ => Some m
  | _ :: tr => last_ok tr
  end.

(** [Sol n A x b]: x is accepted as a solution of the n by n system A x = b; e.g. exact equality, or a bound on the
    residual. It depends only on the entries of A inside the matrix. *)
Variable Sol : nat -> (nat -> nat -> V) -> list V -> list V -> Prop.
Definition sol_ext := forall n A B x b,
  (forall i j, i < n -> j < n -> A i j = B i j) -> Sol n A x b -> Sol n B x b.

(** The promise of the library: with the handles of a symbolic analysis which succeeded and of a numeric
    factorization of [s], a solve with [s] which reports success has used a factorization that succeeded, and its
    answer is a solution of the system of [s]. *)
Definition lib_correct := forall ctl n s0 sy s sk ts c nu rhs x x',
  lib_symbolic ctl (Z.of_nat n) s0 = (0%Z, sy) ->
  csc_holds V zero add s sk n n ts ->
  lib_numeric ctl s sy = (c, nu) ->
  length rhs = n -> length x = n ->
  lib_solve ctl s nu rhs x = (0%Z, x') ->
  c = 0%Z /\ Sol n (total (csc_triplets s)) x' rhs.

(** ** The invariant *)

Definition idle (st : umf) : Prop :=
  u_initialized st = false /\ u_factorized st = false /\
  k_init (u_c st) = false /\ k_fact (u_c st) = false.

Definition live (st : umf) (tr : list (coo V * res unit)) : Prop :=
  let k := u_c st in
  let n := u_ndim st in
  u_initialized st = true /\ k_init k = true /\ k_fact k = true /\ fits_i32 n = true /\
  exists s m c s0, u_csc st = Some s /\ csc_ready s /\ coo_valid m /\
    c_sym m = u_sym st /\ c_nrow m = n /\ c_ncol m = n /\ c_nnz m = u_nnz st /\
    length (s_bx s) = u_nnz st /\
    csc_holds V zero add s (c_sym m) n n (coo_triplets m) /\
    lib_symbolic (k_ctl k) (Z.of_nat n) s0 = (0%Z, k_symbolic k) /\
    lib_numeric (k_ctl k) s (k_symbolic k) = (c, k_numeric k) /\
    (u_factorized st = true -> c = 0%Z -> last_ok tr = Some m) /\
    (u_factorized st = true <-> exists m0, last_ok tr = Some m0) /\
    (forall m0, last_ok tr = Some m0 -> c_sym m0 = c_sym m /\ c_nrow m0 = n /\ c_ncol m0 = n /\ c_nnz m0 = c_nnz m).

Definition inv (st : umf) (tr : list (coo V * res unit)) : Prop :=
  (idle st /\ last_ok tr = None) \/ live st tr.

(** ** Conditions under which a call is refused by factorize itself *)

Definition acceptable_first (m : coo V) : Prop :=
  c_nrow m = c_ncol m /\ 1 <= c_nnz m /\ triangular (c_sym m) = false.
Definition same_shape (m0 m : coo V) : Prop :=
  c_sym m = c_sym m0 /\ c_nrow m = c_nrow m0 /\ c_ncol m = c_ncol m0 /\ c_nnz m = c_nnz m0.

Lemma convert_first st m p :
  coo_valid m -> u_initialized st = false ->
  (~ acceptable_first m /\ exists e, umf_convert V zero add symb num det st m p = (st, Err e)) \/
  (acceptable_first m /\ exists s,
     umf_convert V zero add symb num det st m p =
       (mkUmf (u_c st) (Some s) false (u_factorized st) (c_sym m) (c_nrow m) (c_nnz m) (u_det st), Ok s) /\
     csc_from_coo V zero add m = Ok s /\
     csc_ready s /\ length (s_bx s) = c_nnz m /\
     csc_holds V zero add s (c_sym m) (c_nrow m) (c_nrow m) (coo_triplets m)).
Proof.
  intros HV HI. unfold umf_convert, acceptable_first. rewrite HI.
  destruct (Nat.eqb_spec (c_nrow m) (c_ncol m)) as [H1|H1]; cbn [negb].
  2:{ left. split; [tauto|]. eauto. }
  destruct (Nat.ltb_spec (c_nnz m) 1) as [H2|H2].
  { left. split; [lia|]. eauto. }
  destruct (triangular (c_sym m)).
  { left. split; [intros (_ & _ & A); discriminate|]. eauto. }
  right. split; [splits; auto|].
  destruct (csc_from_coo_ok V zero add m HV ltac:(lia)) as (s & E & R & L & Hh).
  rewrite E. exists s. splits; auto. now rewrite H1 at 2.
Qed.

Lemma convert_next st m p s :
  coo_valid m -> u_initialized st = true -> u_csc st = Some s -> csc_ready s ->
  s_sym s = u_sym st -> s_nrow s = u_ndim st -> s_ncol s = u_ndim st -> length (s_bx s) = u_nnz st ->
  (~ (c_sym m = u_sym st /\ c_nrow m = u_ndim st /\ c_ncol m = u_ndim st /\ c_nnz m = u_nnz st /\ p = None) /\
   exists e, umf_convert V zero add symb num det st m p = (st, Err e)) \/
  ((c_sym m = u_sym st /\ c_nrow m = u_ndim st /\ c_ncol m = u_ndim st /\ c_nnz m = u_nnz st /\ p = None) /\
   exists s', umf_convert V zero add symb num det st m p =
       (mkUmf (u_c st) (Some s') true (u_factorized st) (u_sym st) (u_ndim st) (u_nnz st) (u_det st), Ok s') /\
     csc_ready s' /\ length (s_bx s') = u_nnz st /\
     csc_holds V zero add s' (c_sym m) (u_ndim st) (u_ndim st) (coo_triplets m)).
Proof.
  intros HV HI Hc HR Hs Hn Hm Hl. unfold umf_convert. rewrite HI, Hc.
  destruct (sym_eqb_spec (c_sym m) (u_sym st)) as [H1|H1]; cbn [negb].
  2:{ left. split; [tauto|]. eauto. }
  destruct (Nat.eqb_spec (c_nrow m) (u_ndim st)) as [H2|H2]; cbn [negb].
  2:{ left. split; [tauto|]. eauto. }
  destruct (Nat.eqb_spec (c_nnz m) (u_nnz st)) as [H3|H3]; cbn [negb].
  2:{ left. split; [tauto|]. eauto. }
  destruct p as [p|].
  { left. split; [intros (_ & _ & _ & _ & A); discriminate|]. eauto. }
  destruct (csc_update_cases V zero add s m HV HR) as [(HC & s' & E & R' & L & Hh)|(HC & e & E)]; rewrite E.
  - right. destruct HC as (A1 & A2 & A3 & A4). split; [splits; auto; congruence|].
    exists s'. splits; auto; congruence.
  - left. split; [|eauto]. intros (A1 & A2 & A3 & A4 & _). apply HC. unfold csc_compatible. splits; congruence.
Qed.

Lemma inv_step st tr m p st' r :
  coo_valid m -> inv st tr -> ufact st m p = (st', r) -> inv st' ((m, r) :: tr).
Proof.
  intros HV [[HI HN]|HL] E.
  - (* no numeric factorization has been attempted *)
    pose proof HI as (I1 & I2 & I3 & I4).
    unfold umf_factorize in E.
    destruct (convert_first st m p HV I1) as [(_ & e & Ec)|(HA & s & Ec & Ef & HR & HL & Hh)]; rewrite Ec in E.
    { inversion E; subst. left. split; [auto|]. exact HN. }
    set (par := match p with Some p => p | None => params_new end) in *.
    destruct (fits_i32 (s_nrow s)) eqn:Hf; cbn [negb] in E.
    2:{ inversion E; subst. left. split; [|exact HN]. unfold idle; cbn. auto. }
    cbn [u_initialized u_c u_csc u_factorized u_sym u_ndim u_nnz u_det] in E.
    unfold c_umf_initialize in E. rewrite I3 in E.
    pose proof Hh as (Hh1 & Hh2 & Hh3 & _).
    set (ctl := mkUctl _ _ _) in E.
    destruct (lib_symbolic ctl (Z.of_nat (s_nrow s)) s) as [code sy] eqn:Es.
    destruct (Z.eqb_spec code 0) as [->|Hcode].
    2:{ destruct (Z.eqb_spec code 0); [contradiction|]. cbn [negb] in E. inversion E; subst. left. split; [|exact HN].
        unfold idle; cbn. auto. }
    change (negb (0 =? 0)%Z) with false in E. cbv iota in E.
    unfold c_umf_factorize in E. cbn [k_init negb k_ctl k_symbolic] in E.
    destruct (lib_numeric ctl s sy) as [c nu] eqn:En.
    set (q := if p_compute_determinant par then lib_determinant nu else (c, det_zero)) in E.
    assert (Hq : p_compute_determinant par = false -> fst q = c) by (intros Hp; unfold q; now rewrite Hp).
    destruct q as [code d]. cbn [fst] in Hq.
    right. destruct (Z.eqb_spec code 0) as [Hc0|Hc0]; cbn [negb] in E; inversion E; subst st' r;
      unfold live; cbn [u_initialized u_c u_csc u_factorized u_sym u_ndim u_nnz u_det k_ctl k_symbolic k_numeric k_init k_fact last_ok].
    + rewrite <- Hh2 at 1. splits; auto.
      exists s, m, c, s. destruct HA as (A1 & A2 & A3). splits; auto; try congruence.
      * split; eauto.
      * intros m0 Hm0. inversion Hm0; subst. splits; auto; congruence.
    + rewrite <- Hh2 at 1. splits; auto.
      exists s, m, c, s. destruct HA as (A1 & A2 & A3). splits; auto; try congruence.
      * split; [congruence|]. intros (m0 & Hm0). congruence.
  - destruct HL as (L1 & L2 & L3 & L4 & s & m1 & c & s0 & L5 & L6 & L7 & L8 & L9 & L10 & L11 & L12 & L13 & L14 & L15 & L16 & L17 & L18).
    pose proof L13 as (Hh1 & Hh2 & Hh3 & _).
    unfold umf_factorize in E.
    destruct (convert_next st m p s HV L1 L5 L6 ltac:(congruence) Hh2 Hh3 L12) as [(_ & e & Ec)|(HA & s' & Ec & HR & HL & Hh)]; rewrite Ec in E.
    { inversion E; subst st' r. right. unfold live. cbn [last_ok]. splits; auto. exists s, m1, c, s0. splits; auto. }
    destruct HA as (A1 & A2 & A3 & A4 & ->).
    pose proof Hh as (Hj1 & Hj2 & Hj3 & _).
    rewrite Hj2, L4 in E. cbn [negb] in E.
    cbn [u_initialized u_c u_csc u_factorized u_sym u_ndim u_nnz u_det] in E.
    change (negb (0 =? 0)%Z) with false in E. cbv iota in E.
    unfold c_umf_factorize in E. rewrite L2 in E. cbn [negb params_new p_compute_determinant] in E.
    destruct (lib_numeric (k_ctl (u_c st)) s' (k_symbolic (u_c st))) as [c' nu] eqn:En.
    right. destruct (Z.eqb_spec c' 0) as [Hc0|Hc0]; cbn [negb] in E; inversion E; subst st' r;
      unfold live; cbn [u_initialized u_c u_csc u_factorized u_sym u_ndim u_nnz u_det k_ctl k_symbolic k_numeric k_init k_fact last_ok].
    + splits; auto. exists s', m, c', s0. splits; auto; try congruence.
      * split; eauto.
      * intros m0 Hm0. inversion Hm0; subst. splits; auto.
    + splits; auto. exists s', m, c', s0. splits; auto; try congruence.
      intros m0 Hm0. destruct (L18 m0 Hm0) as (B1 & B2 & B3 & B4). splits; auto; congruence.
Qed.

Lemma inv_run cs : forall st tr st' tr',
  inv st tr -> Forall (fun c : call => coo_valid (fst c)) cs -> run st tr cs = (st', tr') -> inv st' tr'.
Proof.
  induction cs as [|[m p] cs IH]; intros st tr st' tr' HI HF E; cbn [run] in E.
  - inversion E; subst. auto.
  - inversion HF as [|? ? H1 H2]; subst. cbn [fst] in H1.
    destruct (ufact st m p) as [st1 r] eqn:Ef. eapply IH; [|exact H2|exact E]. eapply inv_step; eauto.
Qed.

Lemma inv_new ctl0 : inv (unew ctl0) [].
Proof. left. unfold idle. cbn. auto. Qed.

Lemma holds_total s sk n ts i j :
  csc_holds V zero add s sk n n ts -> i < n -> j < n -> total (csc_triplets s) i j = total ts i j.
Proof.
  intros H Hi Hj. unfold total. rewrite (csc_holds_vals V zero add s sk n n ts i j H Hi Hj).
  unfold cell. now destruct (vals_at ts i j).
Qed.

(** ** Main theorems *)

(** For every program and every correct library: when solve succeeds, some call to factorize has succeeded, the
    vectors have its dimension, and the answer is a solution of the system of the matrix of the last successful call
    (as it was then), with all the values put at one position added up. *)
Theorem C78_solution ctl0 cs st tr x rhs x' :
  sol_ext -> lib_correct ->
  Forall (fun c : call => coo_valid (fst c)) cs ->
  run (unew ctl0) [] cs = (st, tr) ->
  usolve st x rhs = (x', Ok tt) ->
  exists m, last_ok tr = Some m /\ length x = c_nrow m /\ length rhs = c_nrow m /\ c_nrow m = c_ncol m /\
    Sol (c_nrow m) (total (coo_triplets m)) x' rhs.
Proof.
  intros HE HL HF ER ES.
  destruct (inv_run _ _ _ _ _ (inv_new ctl0) HF ER) as [[(I1 & I2 & _) _]|HI].
  { unfold umf_solve in ES. rewrite I2 in ES. discriminate. }
  destruct HI as (L1 & L2 & L3 & L4 & s & m & c & s0 & L5 & L6 & L7 & L8 & L9 & L10 & L11 & L12 & L13 & L14 & L15 & L16 & L17 & L18).
  unfold umf_solve in ES.
  destruct (u_factorized st) eqn:Hf; cbn [negb] in ES; [|discriminate]. rewrite L5 in ES.
  destruct (Nat.eqb_spec (length x) (u_ndim st)) as [Hx|]; cbn [negb] in ES; [|discriminate].
  destruct (Nat.eqb_spec (length rhs) (u_ndim st)) as [Hr|]; cbn [negb] in ES; [|discriminate].
  unfold c_umf_solve in ES. rewrite L3 in ES. cbn [negb] in ES.
  destruct (lib_solve (k_ctl (u_c st)) s (k_numeric (u_c st)) rhs x) as [code y] eqn:Es.
  destruct (Z.eqb_spec code 0) as [->|]; cbn [negb] in ES; [|discriminate]. inversion ES; subst y.
  destruct (HL _ _ _ _ _ _ _ _ _ _ _ _ L14 L13 L15 Hr Hx Es) as [Hc HS].
  exists m. splits; auto; try congruence. rewrite L9.
  eapply HE; [|exact HS]. intros i j Hi Hj. now apply (holds_total s (c_sym m) (u_ndim st)).
Qed.

(** Without a successful call to factorize, or with vectors of another size, solve refuses and leaves x as it was. *)
Theorem C78_solve_refused ctl0 cs st tr x rhs :
  Forall (fun c : call => coo_valid (fst c)) cs ->
  run (unew ctl0) [] cs = (st, tr) ->
  match last_ok tr with
  | None => exists e, usolve st x rhs = (x, Err e)
  | Some m => length x <> c_nrow m \/ length rhs <> c_nrow m -> exists e, usolve st x rhs = (x, Err e)
  end.
Proof.
  intros HF ER. unfold umf_solve.
  destruct (inv_run _ _ _ _ _ (inv_new ctl0) HF ER) as [[(I1 & I2 & _) HN]|HI].
  { rewrite HN, I2. cbn [negb]. eauto. }
  destruct HI as (L1 & L2 & L3 & L4 & s & m & c & s0 & L5 & L6 & L7 & L8 & L9 & L10 & L11 & L12 & L13 & L14 & L15 & L16 & L17 & L18).
  destruct (last_ok tr) as [m0|].
  - intros HX. assert (Hf : u_factorized st = true) by (apply L17; eauto).
    destruct (L18 m0 eq_refl) as (_ & B & _). rewrite B in HX. rewrite Hf, L5. cbn [negb].
    destruct (Nat.eqb_spec (length x) (u_ndim st)); cbn [negb]; [|eauto].
    destruct (Nat.eqb_spec (length rhs) (u_ndim st)); cbn [negb]; [|eauto]. tauto.
  - assert (Hf : u_factorized st = false).
    { destruct (u_factorized st); auto. destruct (proj1 L17 eq_refl) as [m0 H]. discriminate. }
    rewrite Hf. cbn [negb]. eauto.
Qed.

(** The first call: factorize itself refuses exactly the matrices which are not square, are empty, or are stored as a
    triangle; the solver stays as new. *)
Theorem C78_first_call ctl0 m p :
  coo_valid m ->
  (~ acceptable_first m -> exists e, ufact (unew ctl0) m p = (unew ctl0, Err e)) /\
  (acceptable_first m -> fits_i32 (c_nrow m) = true ->
     exists s, csc_holds V zero add s (c_sym m) (c_nrow m) (c_nrow m) (coo_triplets m) /\
       let par := match p with Some p => p | None => params_new end in
       let ctl := mkUctl (p_enforce_unsym par) (umfpack_ordering (p_ordering par)) (umfpack_scaling (p_scaling par)) in
       let '(code1, sy) := lib_symbolic ctl (Z.of_nat (c_nrow m)) s in
       let '(code2, nu) := lib_numeric ctl s sy in
       let '(code3, d) := lib_determinant nu in
       snd (ufact (unew ctl0) m p) =
         if (code1 =? 0)%Z then
           let code := if p_compute_determinant par then code3 else code2 in
           if (code =? 0)%Z then Ok tt else Err (msg code)
         else Err (msg code1)).
Proof.
  intros HV. destruct (convert_first (unew ctl0) m p HV eq_refl) as [(HA & e & Ec)|(HA & s & Ec & Ef & HR & HL & Hh)].
  - split; [|tauto]. intros _. exists e. unfold umf_factorize. now rewrite Ec.
  - split; [tauto|]. intros _ Hf. exists s. split; [exact Hh|].
    pose proof Hh as (_ & Hh2 & _).
    intros par ctl. unfold umf_factorize. rewrite Ec. fold par. rewrite Hh2, Hf. cbn [negb].
    cbn [u_initialized u_c umf_new u_csc u_factorized u_sym u_ndim u_nnz u_det].
    unfold c_umf_initialize. cbn [k_init]. fold ctl.
    destruct (lib_symbolic ctl (Z.of_nat (c_nrow m)) s) as [code1 sy].
    destruct (lib_numeric ctl s sy) as [code2 nu] eqn:En.
    destruct (lib_determinant nu) as [code3 d] eqn:Ed.
    destruct (Z.eqb_spec code1 0) as [->|H1].
    + change (negb (0 =? 0)%Z) with false. cbv iota. unfold c_umf_factorize. cbn [k_init negb k_ctl k_symbolic].
      rewrite En. destruct (p_compute_determinant par).
      * rewrite Ed. now destruct (code3 =? 0)%Z.
      * now destruct (code2 =? 0)%Z.
    + destruct (Z.eqb_spec code1 0); [contradiction|]. reflexivity.
Qed.

(** After a call which succeeded with [m0]: factorize itself refuses exactly the matrices of another kind, shape or
    number of values and the calls which give parameters; then nothing changes. Otherwise the result is the one of the
    numeric factorization of the new matrix, with the analysis of the first one, and a failure of it makes the
    following solve fail: the factors of [m0] are not used again. *)
Theorem C78_next_call ctl0 cs st tr m0 m p :
  lib_correct ->
  Forall (fun c : call => coo_valid (fst c)) cs ->
  run (unew ctl0) [] cs = (st, tr) -> last_ok tr = Some m0 -> coo_valid m ->
  (~ (same_shape m0 m /\ p = None) -> exists e, ufact st m p = (st, Err e)) /\
  (same_shape m0 m -> p = None ->
     exists s ctl sy, csc_holds V zero add s (c_sym m) (c_nrow m) (c_nrow m) (coo_triplets m) /\
       (exists s0, lib_symbolic ctl (Z.of_nat (c_nrow m)) s0 = (0%Z, sy)) /\
       let '(code, nu) := lib_numeric ctl s sy in
       let '(st', r) := ufact st m p in
       u_det st' = det_zero /\
       r = (if (code =? 0)%Z then Ok tt else Err (msg code)) /\
       (code <> 0%Z -> forall x rhs, snd (usolve st' x rhs) <> Ok tt)).
Proof.
  intros HLc HF ER HN HV.
  destruct (inv_run _ _ _ _ _ (inv_new ctl0) HF ER) as [[_ HN']|HI]; [congruence|].
  destruct HI as (L1 & L2 & L3 & L4 & s & m1 & c & s0 & L5 & L6 & L7 & L8 & L9 & L10 & L11 & L12 & L13 & L14 & L15 & L16 & L17 & L18).
  destruct (L18 m0 HN) as (B1 & B2 & B3 & B4).
  pose proof L13 as (Hh1 & Hh2 & Hh3 & _).
  destruct (convert_next st m p s HV L1 L5 L6 ltac:(congruence) Hh2 Hh3 L12) as [(HA & e & Ec)|(HA & s' & Ec & HR & HL & Hh)].
  - split.
    + intros _. exists e. unfold umf_factorize. now rewrite Ec.
    + intros (S1 & S2 & S3 & S4) ->. exfalso. apply HA. splits; auto; congruence.
  - destruct HA as (A1 & A2 & A3 & A4 & ->). split.
    { intros HX. exfalso. apply HX. split; [|reflexivity]. unfold same_shape. splits; congruence. }
    intros _ _. exists s', (k_ctl (u_c st)), (k_symbolic (u_c st)).
    pose proof Hh as (Hj1 & Hj2 & Hj3 & _).
    split; [now rewrite A2|]. split; [exists s0; now rewrite A2|].
    destruct (lib_numeric (k_ctl (u_c st)) s' (k_symbolic (u_c st))) as [code nu] eqn:En.
    unfold umf_factorize. rewrite Ec. rewrite Hj2, L4. cbn [negb].
    cbn [u_initialized u_c u_csc u_factorized u_sym u_ndim u_nnz u_det].
    change (negb (0 =? 0)%Z) with false. cbv iota.
    unfold c_umf_factorize. rewrite L2. cbn [negb params_new p_compute_determinant]. rewrite En.
    destruct (Z.eqb_spec code 0) as [Hc|Hc]; cbn [negb u_det]; splits; auto; try congruence.
    intros _ x rhs. unfold umf_solve. cbn [u_factorized u_csc u_ndim u_c].
    destruct (u_factorized st); cbn [negb snd]; [|discriminate].
    destruct (Nat.eqb_spec (length x) (u_ndim st)) as [Hx|]; cbn [negb snd]; [|discriminate].
    destruct (Nat.eqb_spec (length rhs) (u_ndim st)) as [Hr|]; cbn [negb snd]; [|discriminate].
    unfold c_umf_solve. cbn [k_fact negb k_ctl k_numeric].
    destruct (lib_solve (k_ctl (u_c st)) s' nu rhs x) as [code' y] eqn:Es.
    destruct (Z.eqb_spec code' 0) as [->|]; cbn [negb snd]; [|discriminate].
    exfalso. apply Hc. now destruct (HLc _ _ _ _ _ _ _ _ _ _ _ _ L14 Hh En Hr Hx Es).
Qed.

(** No program panics, as long as the matrices have at most i32::MAX rows. *)
Theorem C78_no_panic ctl0 cs st tr :
  Forall (fun c : call => coo_valid (fst c)) cs ->
  run (unew ctl0) [] cs = (st, tr) ->
  (forall m p, coo_valid m -> fits_i32 (c_nrow m) = true -> snd (ufact st m p) <> Panic) /\
  (forall x rhs, snd (usolve st x rhs) <> Panic).
Proof.
  intros HF ER. pose proof (inv_run _ _ _ _ _ (inv_new ctl0) HF ER) as HI. split.
  - intros m p HV Hf. destruct HI as [[(I1 & I2 & I3 & I4) HN]|HI].
    + unfold umf_factorize.
      destruct (convert_first st m p HV I1) as [(HA & e & Ec)|(HA & s & Ec & Ef & HR & HL & Hh)]; rewrite Ec; [discriminate|].
      pose proof Hh as (_ & Hh2 & _). rewrite Hh2, Hf. cbn [negb].
      cbn [u_initialized u_c u_csc u_factorized u_sym u_ndim u_nnz u_det].
      destruct (c_umf_initialize _ _ _ _ _ _ _ _ _ _) as [k status].
      destruct (status =? 0)%Z; cbn [negb]; [|discriminate].
      destruct (c_umf_factorize _ _ _ _ _ _ _ _ _ _ _) as [[k' d] status'].
      destruct (status' =? 0)%Z; cbn [negb]; discriminate.
    + destruct HI as (L1 & L2 & L3 & L4 & s & m1 & c & s0 & L5 & L6 & L7 & L8 & L9 & L10 & L11 & L12 & L13 & _).
      pose proof L13 as (Hh1 & Hh2 & Hh3 & _). unfold umf_factorize.
      destruct (convert_next st m p s HV L1 L5 L6 ltac:(congruence) Hh2 Hh3 L12) as [(HA & e & Ec)|(HA & s' & Ec & HR & HL & Hh)];
        rewrite Ec; [discriminate|].
      pose proof Hh as (_ & Hj2 & _). rewrite Hj2, L4. cbn [negb].
      cbn [u_initialized u_c u_csc u_factorized u_sym u_ndim u_nnz u_det].
      change (negb (0 =? 0)%Z) with false. cbv iota.
      destruct (c_umf_factorize _ _ _ _ _ _ _ _ _ _ _) as [[k' d] status'].
      destruct (status' =? 0)%Z; cbn [negb]; discriminate.
  - intros x rhs. unfold umf_solve. destruct HI as [[(I1 & I2 & I3 & I4) HN]|HI].
    + rewrite I2. discriminate.
    + destruct HI as (L1 & L2 & L3 & L4 & s & m1 & c & s0 & L5 & _). rewrite L5.
      destruct (u_factorized st); cbn [negb]; [|discriminate].
      destruct (length x =? u_ndim st); cbn [negb]; [|discriminate].
      destruct (length rhs =? u_ndim st); cbn [negb]; [|discriminate].
      destruct (c_umf_solve _ _ _ _ _ _ _ _) as [y status].
      destruct (status =? 0)%Z; cbn [negb]; discriminate.
Qed.

(** compute: an answer which is given is a solution of the system, and a system which the library can solve is solved *)
Theorem C78_compute ctl0 x m rhs p x' st :
  sol_ext -> lib_correct -> coo_valid m ->
  ucompute ctl0 x m rhs p = (x', Ok st) ->
  c_nrow m = c_ncol m /\ length x = c_nrow m /\ length rhs = c_nrow m /\ Sol (c_nrow m) (total (coo_triplets m)) x' rhs.
Proof.
  intros HE HL HV E. unfold umf_compute in E.
  destruct (ufact (unew ctl0) m p) as [st1 r] eqn:Ef. destruct r as [[]|e|]; try discriminate.
  destruct (usolve st1 x rhs) as [y r] eqn:Es. destruct r as [[]|e|]; try discriminate. inversion E; subst y st1.
  destruct (C78_solution ctl0 [(m, p)] st [(m, Ok tt)] x rhs x' HE HL) as (m' & Hm & H1 & H2 & H3 & H4).
  - constructor; [exact HV|constructor].
  - cbn [run]. now rewrite Ef.
  - exact Es.
  - cbn [last_ok] in Hm. inversion Hm; subst m'. auto.
Qed.

Theorem C78_compute_available ctl0 x m rhs p par ctl :
  coo_valid m -> acceptable_first m -> fits_i32 (c_nrow m) = true ->
  par = match p with Some p => p | None => params_new end ->
  ctl = mkUctl (p_enforce_unsym par) (umfpack_ordering (p_ordering par)) (umfpack_scaling (p_scaling par)) ->
  p_compute_determinant par = false -> length x = c_nrow m -> length rhs = c_nrow m ->
  (forall s, csc_holds V zero add s (c_sym m) (c_nrow m) (c_nrow m) (coo_triplets m) ->
     exists sy nu x', lib_symbolic ctl (Z.of_nat (c_nrow m)) s = (0%Z, sy) /\ lib_numeric ctl s sy = (0%Z, nu) /\
       lib_solve ctl s nu rhs x = (0%Z, x')) ->
  exists x' st, ucompute ctl0 x m rhs p = (x', Ok st).
Proof.
  intros HV HA Hf Hpar Hctl Hd Hx Hr HL.
  destruct (convert_first (unew ctl0) m p HV eq_refl) as [(HA' & _)|(_ & s & Ec & Ef & HR & Hl & Hh)]; [tauto|].
  destruct (HL s Hh) as (sy & nu & x' & E1 & E2 & E3).
  pose proof Hh as (_ & Hh2 & _).
  unfold umf_compute, umf_factorize. rewrite Ec. rewrite <- Hpar, Hh2, Hf. cbn [negb].
  cbn [u_initialized u_c umf_new u_csc u_factorized u_sym u_ndim u_nnz u_det].
  unfold c_umf_initialize. cbn [k_init]. rewrite <- Hctl, E1.
  change (0 =? 0)%Z with true. cbv iota. cbn [negb].
  unfold c_umf_factorize. cbn [k_init negb k_ctl k_symbolic]. rewrite E2, Hd.
  change (0 =? 0)%Z with true. cbn [negb].
  unfold umf_solve. cbn [u_factorized negb u_csc u_ndim u_c].
  rewrite Hx, Hr, Nat.eqb_refl. cbn [negb]. unfold c_umf_solve. cbn [k_fact negb k_ctl k_numeric]. rewrite E3.
  change (0 =? 0)%Z with true. cbn [negb]. eauto.
Qed.

End U.

(* ------------------------------------------------------------------ *)
(** * A library for exact integers, examples and refutations *)

(** exact solutions *)
Definition zsum (n : nat) (A : nat -> nat -> Z) (x : list Z) (i : nat) : Z :=
  fold_right Z.add 0%Z (map (fun j => (A i j * nth j x 0)%Z) (seq 0 n)).
Definition zsol (n : nat) (A : nat -> nat -> Z) (x b : list Z) : Prop :=
  length x = n /\ forall i, i < n -> zsum n A x i = nth i b 0%Z.
Definition zsolb (n : nat) (A : nat -> nat -> Z) (x b : list Z) : bool :=
  (length x =? n) && forallb (fun i => (zsum n A x i =? nth i b 0)%Z) (seq 0 n).

Lemma zsolb_ok n A x b : zsolb n A x b = true -> zsol n A x b.
Proof.
  unfold zsolb, zsol. intros H. apply andb_prop in H. destruct H as [H1 H2]. apply Nat.eqb_eq in H1.
  split; [auto|]. intros i Hi. rewrite forallb_forall in H2.
  apply Z.eqb_eq, H2, in_seq. lia.
Qed.

Lemma zsum_ext n A B x i : i < n -> (forall i j, i < n -> j < n -> A i j = B i j) -> zsum n A x i = zsum n B x i.
Proof.
  intros Hi H. unfold zsum. f_equal. apply map_ext_in. intros j Hj. apply in_seq in Hj. rewrite H; auto. lia.
Qed.

Lemma zsol_ext : sol_ext Z zsol.
Proof.
  intros n A B x b H [H1 H2]. split; [auto|]. intros i Hi. rewrite <- (zsum_ext n A B x i Hi H). auto.
Qed.

(** the vectors of length n with entries between -3 and 3 *)
Fixpoint candidates (n : nat) : list (list Z) :=
  match n with
  | 0 => [[]]
  | S n => flat_map (fun x => map (fun a => a :: x) [-3; -2; -1; 0; 1; 2; 3]%Z) (candidates n)
  end.

Definition zentry (s : csc Z) (i j : nat) : Z := total Z 0%Z Z.add (csc_triplets s) i j.
Definition zdet (s : csc Z) : Z :=
  match s_nrow s with
  | 1 => zentry s 0 0
  | 2 => (zentry s 0 0 * zentry s 1 1 - zentry s 0 1 * zentry s 1 0)%Z
  | _ => 1%Z
  end.
(** the code of UMFPACK for a singular matrix is 1, and the handle is not null *)
Definition zsymbolic (_ : uctl) (_ : Z) (_ : csc Z) : Z * option unit := (0%Z, Some tt).
Definition znumeric (_ : uctl) (s : csc Z) (_ : option unit) : Z * option (csc Z) :=
  if (zdet s =? 0)%Z then (1%Z, Some s) else (0%Z, Some s).
Definition zdeterminant (h : option (csc Z)) : Z * Z :=
  match h with Some s => (0%Z, zdet s) | None => ((-3)%Z, 0%Z) end.
Definition zsolve (_ : uctl) (s : csc Z) (h : option (csc Z)) (rhs x : list Z) : Z * list Z :=
  match h with
  | None => ((-3)%Z, x)
  | Some f =>
      if (zdet f =? 0)%Z then (1%Z, x)
      else match find (fun y => zsolb (s_nrow s) (zentry s) y rhs) (candidates (s_nrow s)) with
           | Some y => (0%Z, y)
           | None => ((-1)%Z, x)
           end
  end.

Lemma zlib_correct : lib_correct Z 0%Z Z.add unit (csc Z) zsymbolic znumeric zsolve zsol.
Proof.
  intros ctl n s0 sy s sk ts c nu rhs x x' _ (_ & Hn & _) En Hr Hx Es.
  unfold znumeric in En. unfold zsolve in Es.
  assert (Hnu : nu = Some s) by (destruct (zdet s =? 0)%Z; now inversion En). subst nu.
  destruct (zdet s =? 0)%Z; [discriminate|]. inversion En; subst c.
  destruct (find _ _) as [y|] eqn:Ef; [|discriminate]. inversion Es; subst y.
  split; [reflexivity|]. apply find_some in Ef. destruct Ef as [_ Ef]. rewrite Hn in Ef.
  now apply zsolb_ok.
Qed.

Definition zmsg (code : Z) : string := if (code =? 1)%Z then "Error(1): Matrix is singular" else "other".
Definition zfact := umf_factorize Z 0%Z Z.add zmsg unit (csc Z) Z 0%Z zsymbolic znumeric zdeterminant.
Definition zusolve := umf_solve Z zmsg unit (csc Z) Z zsolve.
Definition znew := umf_new Z unit (csc Z) Z 0%Z (mkUctl false 0%Z 0%Z).
Definition want_det : params := mkParams OAuto ScAuto false true false false 100 0 0 false false.
Definition coo1 (v : Z) : coo Z := mkCoo SymNo 1 1 1 1 [0] [0] [v].
(** [2 1; 0 1], the last entry in two parts *)
Definition coo_a : coo Z := mkCoo SymNo 2 2 4 4 [0; 0; 1; 1] [0; 1; 1; 1] [2; 1; 3; -2]%Z.
(** [1 -1; 0 2] *)
Definition coo_b : coo Z := mkCoo SymNo 2 2 4 4 [0; 0; 1; 1] [0; 1; 1; 1] [1; -1; 1; 1]%Z.

Ltac coo_check :=
  unfold coo_valid; splits; cbn; try lia; try (intros X; exfalso; now apply X); intros t H;
  repeat match goal with H : _ \/ _ |- _ => destruct H | H : False |- _ => destruct H end; subst; cbn; splits; lia || reflexivity.

Lemma coo_a_valid : coo_valid coo_a.
Proof. coo_check. Qed.
Lemma coo_b_valid : coo_valid coo_b.
Proof. coo_check. Qed.

(** factorize A, solve, factorize B with the same solver, solve: both answers *)
Definition ex1 := zfact znew coo_a None.
Definition ex2 := zfact (fst ex1) coo_b None.
Example C78_example :
  snd ex1 = Ok tt /\ zusolve (fst ex1) [0; 0]%Z [5; 1]%Z = ([2; 1]%Z, Ok tt) /\
  snd ex2 = Ok tt /\ zusolve (fst ex2) [0; 0]%Z [1; -2]%Z = ([0; -1]%Z, Ok tt) /\
  snd (run Z 0%Z Z.add zmsg unit (csc Z) Z 0%Z zsymbolic znumeric zdeterminant znew [] [(coo_a, None); (coo_b, None)]) =
    [(coo_b, Ok tt); (coo_a, Ok tt)].
Proof. splits; vm_compute; reflexivity. Qed.

(** FINDING: with compute_determinant, the C layer overwrites the code of the numeric factorization with the code of
    the determinant: factorize reports success for a singular matrix, which is reported without that option. *)
Theorem C78_singular_reported_refuted :
  lib_correct Z 0%Z Z.add unit (csc Z) zsymbolic znumeric zsolve zsol /\ coo_valid (coo1 0) /\
  snd (zfact znew (coo1 0) None) = Err "Error(1): Matrix is singular" /\
  snd (zfact znew (coo1 0) (Some want_det)) = Ok tt.
Proof.
  split; [exact zlib_correct|]. split; [coo_check|]. split; vm_compute; reflexivity.
Qed.

(** FINDING: the request of the determinant is forgotten by the second factorization, and cannot be repeated (giving
    parameters again is refused): the statistics then give the determinant 0. *)
Definition dt1 := zfact znew (coo1 5) (Some want_det).
Definition dt2 := zfact (fst dt1) (coo1 7) None.
Theorem C78_determinant_kept_refuted :
  snd dt1 = Ok tt /\ u_det (fst dt1) = 5%Z /\
  snd dt2 = Ok tt /\ u_det (fst dt2) = 0%Z /\
  snd (zfact (fst dt1) (coo1 7) (Some want_det)) = Err "subsequent factorizations must not change LinSolParams".
Proof. splits; vm_compute; reflexivity. Qed.

(** ** the options: which ordering and scaling the libraries are asked for *)

(** the codes of the manuals: umfpack.h (ordering, scaling), ICNTL(7) and ICNTL(8) of MUMPS *)
Definition umfpack_manual_ordering (code : Z) : option ordering :=
  (match code with 0 => Some OCholmod | 1 => Some OAmd | 3 => Some OMetis | 4 => Some OBest | 5 => Some ONo | _ => None end)%Z.
Definition umfpack_manual_scaling (code : Z) : option scaling :=
  (match code with 0 => Some ScNo | 1 => Some ScSum | 2 => Some ScMax | _ => None end)%Z.
Definition mumps_manual_ordering (code : Z) : option ordering :=
  (match code with 0 => Some OAmd | 2 => Some OAmf | 3 => Some OScotch | 4 => Some OPord | 5 => Some OMetis | 6 => Some OQamd | 7 => Some OAuto | _ => None end)%Z.
Definition mumps_manual_scaling (code : Z) : option scaling :=
  (match code with 0 => Some ScNo | 1 => Some ScDiagonal | 3 => Some ScColumn | 4 => Some ScRowCol | 7 => Some ScRowColIter | 8 => Some ScRowColRig | 77 => Some ScAuto | _ => None end)%Z.
(** enums.rs:69-220: the options documented as available *)
Definition umfpack_has_ordering (o : ordering) : Prop := In o [OAmd; OBest; OCholmod; OMetis; ONo].
Definition umfpack_has_scaling (s : scaling) : Prop := In s [ScMax; ScNo; ScSum].
Definition mumps_has_ordering (o : ordering) : Prop := In o [OAmd; OAmf; OMetis; OPord; OQamd; OScotch].
Definition mumps_has_scaling (s : scaling) : Prop := In s [ScColumn; ScDiagonal; ScNo; ScRowCol; ScRowColIter; ScRowColRig].

(** available options reach the library with the code of the manual; the others select what the automatic option selects *)
Theorem C78_options :
  (forall o, umfpack_has_ordering o -> umfpack_manual_ordering (umfpack_ordering o) = Some o) /\
  (forall o, ~ umfpack_has_ordering o -> o <> OColamd -> umfpack_ordering o = umfpack_ordering OAuto) /\
  (forall s, umfpack_has_scaling s -> umfpack_manual_scaling (umfpack_scaling s) = Some s) /\
  (forall s, ~ umfpack_has_scaling s -> umfpack_scaling s = umfpack_scaling ScAuto) /\
  umfpack_scaling ScAuto = umfpack_scaling ScSum /\
  (forall o, mumps_has_ordering o -> mumps_manual_ordering (mumps_ordering o) = Some o) /\
  (forall o, ~ mumps_has_ordering o -> mumps_manual_ordering (mumps_ordering o) = Some OAuto) /\
  (forall s, mumps_has_scaling s -> mumps_manual_scaling (mumps_scaling s) = Some s) /\
  (forall s, ~ mumps_has_scaling s -> mumps_manual_scaling (mumps_scaling s) = Some ScAuto).
Proof.
  unfold umfpack_has_ordering, umfpack_has_scaling, mumps_has_ordering, mumps_has_scaling.
  splits; try reflexivity; intros o; destruct o; cbn [In]; intros; try reflexivity; exfalso; intuition congruence.
Qed.
(** FINDING: Ordering::Colamd is documented as unavailable with UMFPACK and to default to automatic (enums.rs:114-119),
    but it selects the CHOLMOD ordering, which Ordering::Auto does not. *)
Theorem C78_colamd_refuted :
  umfpack_ordering OColamd <> umfpack_ordering OAuto /\ umfpack_manual_ordering (umfpack_ordering OColamd) = Some OCholmod.
Proof. split; [discriminate|reflexivity]. Qed.

Print Assumptions C78_solution.
Print Assumptions C78_next_call.
