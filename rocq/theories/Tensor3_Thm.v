(** Theorems about third-order tensors (C88): the Kelvin-Mandel matrix of a
    Tensor3 stands for one 3x3x3 array, in both layouts, and every operation of
    operations_t3.rs is the component formula on these arrays.

    Specification: for a case A tensor, each value of the last index [k] is a
    second-order tensor in (i, j) expanded in the Kelvin-Mandel basis of
    Tensor_Spec.v; for a case B tensor, each value of the first index [i] is one
    in (j, k). *)
From Coq Require Import Reals Lra List.
From Verif Require Import Base RBase Tensor_Model Tensor4_Model Tensor_Spec Tensor_Lib Tensor_Thm Tensor4_Thm Tensor3_Model.
Import ListNotations.
Open Scope R_scope.

(** ** Specification *)
Definition a3 := nat -> nat -> nat -> R.
Definition tens3 (d : t3) : a3 := fun i j k =>
  if t3_case_a d then summ (rep_dim (t3_rep d)) (fun m => t3_mat d m k * basis m i j)
  else summ (rep_dim (t3_rep d)) (fun n => t3_mat d i n * basis n j k).
Definition eq3 (a b : a3) : Prop := forall i j k, (i < 3)%nat -> (j < 3)%nat -> (k < 3)%nat -> a i j k = b i j k.
(** the second-order tensors an array consists of *)
Definition slice (case_a : bool) (a : a3) (q : nat) : m3 := if case_a then fun i j => a i j q else fun j k => a q j k.
(** what a representation can hold *)
Definition admissible3 (r : rep) (case_a : bool) (a : a3) : Prop := forall q, (q < 3)%nat -> admissible2 r (slice case_a a q).
(** the shape a constructor gives; no method changes it *)
Definition t3_wf (d : t3) : Prop :=
  (t3_nrow d, t3_ncol d) = if t3_case_a d then (rep_dim (t3_rep d), 3%nat) else (3%nat, rep_dim (t3_rep d)).
Definition same_kind (d d' : t3) : Prop :=
  t3_case_a d' = t3_case_a d /\ t3_rep d' = t3_rep d /\ t3_nrow d' = t3_nrow d /\ t3_ncol d' = t3_ncol d.

(** ** closed forms *)
Lemma tens3_c2 d i j k : (i < 3)%nat -> (j < 3)%nat -> (k < 3)%nat ->
  tens3 d i j k = if t3_case_a d then c2 i j (ext (rep_dim (t3_rep d)) (fun m => t3_mat d m k))
                  else c2 j k (ext (rep_dim (t3_rep d)) (t3_mat d i)).
Proof.
  intros Hi Hj Hk. unfold tens3. destruct (t3_case_a d); rewrite summ_dim; apply basis_sum9; assumption.
Qed.
Ltac tens3t := rewrite ?tens3_c2 by lia.
Lemma wf_cases d : t3_wf d -> (t3_case_a d = true /\ t3_nrow d = rep_dim (t3_rep d) /\ t3_ncol d = 3%nat) \/
  (t3_case_a d = false /\ t3_nrow d = 3%nat /\ t3_ncol d = rep_dim (t3_rep d)).
Proof. unfold t3_wf. destruct (t3_case_a d); intros H; injection H as -> ->; auto. Qed.

Theorem C88_new r ca : t3_wf (t3_new r ca) /\ t3_case_a (t3_new r ca) = ca /\ t3_rep (t3_new r ca) = r /\ eq3 (tens3 (t3_new r ca)) (fun _ _ _ => 0).
Proof.
  splits; try (destruct ca; reflexivity). intros i j k Hi Hj Hk. unfold tens3.
  destruct ca; cbn -[summ]; rewrite (summ_ext_eq _ _ (fun _ => 0)) by (intros; ring); apply summ_zero.
Qed.
Theorem C88_get_std d i j k : t3_wf d -> (i < 3)%nat -> (j < 3)%nat -> (k < 3)%nat -> t3_get_std d i j k = Ok (tens3 d i j k).
Proof.
  intros W Hi Hj Hk. tens3t. destruct d as [ca nr nc v r].
  destruct (wf_cases _ W) as [(E1 & E2 & E3)|(E1 & E2 & E3)]; cbn in E1, E2, E3; subst; unfold t3_get_std; cbn [t3_case_a t3_nrow t3_ncol t3_rep t3_mat];
    destruct r; idx i; idx j; idx k; tred; f_equal; kfield.
Qed.
Theorem C88_get_std_range d i j k : ~ ((i < 3)%nat /\ (j < 3)%nat /\ (k < 3)%nat) -> t3_get_std d i j k = Panic.
Proof. intros H. unfold t3_get_std. destruct (Nat.ltb_spec i 3), (Nat.ltb_spec j 3), (Nat.ltb_spec k 3); cbn; auto. lia. Qed.
Lemma gs3_tens d i j k : t3_wf d -> (i < 3)%nat -> (j < 3)%nat -> (k < 3)%nat -> gs3 d i j k = tens3 d i j k.
Proof. intros. unfold gs3. rewrite C88_get_std by assumption. reflexivity. Qed.

(** get and set work on positions of the 9 by 9 array and panic outside it *)
Theorem C88_get_set d m n x :
  ((m < 9)%nat /\ (n < 9)%nat -> exists d', t3_set d m n x = Ok d' /\
     t3_case_a d' = t3_case_a d /\ t3_rep d' = t3_rep d /\ t3_dims d' = t3_dims d /\
     forall m' n', t3_get d' m' n' = if ((m' =? m) && (n' =? n))%nat then Ok x else t3_get d m' n') /\
  ((9 <= m)%nat \/ (9 <= n)%nat -> t3_set d m n x = Panic /\ t3_get d m n = Panic).
Proof.
  unfold t3_set, t3_get. split.
  - intros [Hm Hn]. rewrite (proj2 (Nat.ltb_lt m 9) Hm), (proj2 (Nat.ltb_lt n 9) Hn). cbn [andb]. eexists. split; [reflexivity|]. splits; auto.
    intros m' n'. cbn [t3_mat t3_put]. unfold wr2.
    destruct (Nat.eqb_spec m' m) as [->|], (Nat.eqb_spec n' n) as [->|]; cbn [andb]; rewrite ?(proj2 (Nat.ltb_lt m 9) Hm), ?(proj2 (Nat.ltb_lt n 9) Hn); reflexivity.
  - intros H. destruct (Nat.ltb_spec m 9), (Nat.ltb_spec n 9); cbn [andb]; auto; lia.
Qed.
(** Finding: `get` and `set` are documented to panic when the indices are not below
    the sizes given by dims(); without the heap feature they do not: every tensor
    accepts a write to its (8, 8) component, which lies outside its dimensions, and
    reads the value back. *)
Theorem C88_set_range_refuted r case_a x : exists d', t3_set (t3_new r case_a) 8 8 x = Ok d' /\ t3_get d' 8 8 = Ok x /\
  ~ ((8 < fst (t3_dims d'))%nat /\ (8 < snd (t3_dims d'))%nat).
Proof. eexists. split; [reflexivity|]. split; [reflexivity|]. destruct r, case_a; cbn; lia. Qed.

(** the stored matrix is an isometric image of the array *)
Theorem C88_isometry d e : t3_case_a e = t3_case_a d -> t3_rep e = t3_rep d ->
  sum3 (fun i => sum3 (fun j => sum3 (fun k => tens3 d i j k * tens3 e i j k))) =
  if t3_case_a d then summ (rep_dim (t3_rep d)) (fun m => sum3 (fun k => t3_mat d m k * t3_mat e m k))
  else summ (rep_dim (t3_rep d)) (fun n => sum3 (fun i => t3_mat d i n * t3_mat e i n)).
Proof.
  destruct d as [ca nr nc v r], e as [ca' nr' nc' v' r']. cbn [t3_case_a t3_rep]. intros -> ->. unfold sum3. tens3t. cbn [t3_case_a t3_rep t3_mat].
  destruct ca, r; tred; kfield.
Qed.

(** ** the loops over the 27 index triples *)
Definition forall3 (P : nat -> nat -> nat -> Prop) : Prop := forall i j k, (i < 3)%nat -> (j < 3)%nat -> (k < 3)%nat -> P i j k.
Lemma in_idx3 i j k : In (i, j, k) idx3 <-> (i < 3 /\ j < 3 /\ k < 3)%nat.
Proof.
  unfold idx3. split.
  - intros H. apply in_flat_map in H as (a & Ha & H). apply in_flat_map in H as (b & Hb & H).
    apply in_map_iff in H as (e & E & He). injection E as <- <- <-. apply in_seq in Ha, Hb, He. lia.
  - intros (Hi & Hj & Hk). apply in_flat_map. exists i. split; [apply in_seq; lia|]. apply in_flat_map. exists j. split; [apply in_seq; lia|].
    apply in_map_iff. exists k. split; [reflexivity|]. apply in_seq. lia.
Qed.
Lemma err_loop3_spec {S : Type} (f : nat -> nat -> nat -> S -> S * res unit)
    (ok : nat -> nat -> nat -> Prop) (g : nat -> nat -> nat -> S -> S) s :
  forall3 (fun i j k => ok i j k /\ (forall s, f i j k s = (g i j k s, Ok tt)) \/
                        ~ ok i j k /\ (forall s, exists s' e, f i j k s = (s', Err e))) ->
  (forall3 ok /\ err_loop3 f s = (fold_left (fun s ijk => let '(i, j, k) := ijk in g i j k s) idx3 s, Ok tt)) \/
  (~ forall3 ok /\ exists s' e, err_loop3 f s = (s', Err e)).
Proof.
  intros H. unfold err_loop3.
  assert (K : forall L s, (forall x, In x L -> In x idx3) ->
    ((forall i j k, In (i, j, k) L -> ok i j k) /\
     fold_left (fun acc ijk => let '(i, j, k) := ijk in match acc with (s, Ok _) => f i j k s | stop => stop end) L (s, Ok tt)
     = (fold_left (fun s ijk => let '(i, j, k) := ijk in g i j k s) L s, Ok tt)) \/
    (~ (forall i j k, In (i, j, k) L -> ok i j k) /\
     exists s' e, fold_left (fun acc ijk => let '(i, j, k) := ijk in match acc with (s, Ok _) => f i j k s | stop => stop end) L (s, Ok tt) = (s', Err e))).
  { clear s. induction L as [|[[i j] k] L IH]; intros s HL.
    - left. split; [intros ? ? ? []|reflexivity].
    - assert (Hi : In (i, j, k) idx3) by (apply HL; left; reflexivity). apply in_idx3 in Hi as (Hi & Hj & Hk).
      destruct (H i j k Hi Hj Hk) as [(O & E)|(O & E)]; cbn [fold_left].
      + rewrite E. destruct (IH (g i j k s)) as [(A & B)|(A & B)]; [intros; apply HL; right; assumption| |].
        * left. split; [|exact B]. intros a b c [X|X]; [injection X as <- <- <-; exact O|apply A; exact X].
        * right. split; [|exact B]. intros X. apply A. intros. apply X. right. assumption.
      + right. split; [intros X; apply O, X; left; reflexivity|]. destruct (E s) as (s' & e & ->).
        exists s', e. clear. induction L as [|[[i j] k] L IH]; [reflexivity|exact IH]. }
  destruct (K idx3 s ltac:(auto)) as [(A & B)|(A & B)].
  - left. split; [|exact B]. intros i j k Hi Hj Hk. apply A, in_idx3. auto.
  - right. split; [|exact B]. intros X. apply A. intros i j k Q. apply in_idx3 in Q as (Hi & Hj & Hk). apply X; assumption.
Qed.

(** ** setting from a 3x3x3 array *)
Definition ok3 (ca : bool) (max : nat) (inp : a3) (i j k : nat) : Prop :=
  if ca then
    if (j <? i)%nat then inp i j k = inp j i k else if (max <? IJ_TO_M i j)%nat then inp i j k = 0 else True
  else
    if (k <? j)%nat then inp i j k = inp i k j else if (max <? IJ_TO_M j k)%nat then inp i j k = 0 else True.
Lemma ok3_sym ca inp : forall3 (ok3 ca 6 inp) <-> admissible3 Symmetric ca inp.
Proof.
  unfold ok3. split.
  - intros H q Hq. cbn [admissible2]. intros i j Hi Hj. unfold mtrans, slice. destruct ca.
    + pose proof (H i j q Hi Hj Hq) as A. pose proof (H j i q Hj Hi Hq) as B. clear H. idx i; idx j; cbn in A, B |- *; congruence.
    + pose proof (H q i j Hq Hi Hj) as A. pose proof (H q j i Hq Hj Hi) as B. clear H. idx i; idx j; cbn in A, B |- *; congruence.
  - intros H i j k Hi Hj Hk. destruct ca.
    + pose proof (H k Hk j i Hj Hi) as A. unfold mtrans, slice in A. clear H. idx i; idx j; cbn; try exact I; exact A.
    + pose proof (H i Hi k j Hk Hj) as A. unfold mtrans, slice in A. clear H. idx j; idx k; cbn; try exact I; exact A.
Qed.
Lemma ok3_2d ca inp : forall3 (ok3 ca 3 inp) <-> admissible3 Symmetric2D ca inp.
Proof.
  unfold ok3. split.
  - intros H q Hq. cbn [admissible2]. split; [|split].
    + intros i j Hi Hj. unfold mtrans, slice. destruct ca.
      * pose proof (H i j q Hi Hj Hq) as A. pose proof (H j i q Hj Hi Hq) as B. clear H. idx i; idx j; cbn in A, B |- *; congruence.
      * pose proof (H q i j Hq Hi Hj) as A. pose proof (H q j i Hq Hj Hi) as B. clear H. idx i; idx j; cbn in A, B |- *; congruence.
    + unfold slice. destruct ca; [apply (H 0 2 q)%nat|apply (H q 0 2)%nat]; lia.
    + unfold slice. destruct ca; [apply (H 1 2 q)%nat|apply (H q 1 2)%nat]; lia.
  - intros H i j k Hi Hj Hk. destruct ca.
    + destruct (H k Hk) as (A & B & C). specialize (A j i Hj Hi). unfold mtrans, slice in A, B, C. clear H. idx i; idx j; cbn; try exact I; assumption.
    + destruct (H i Hi) as (A & B & C). specialize (A k j Hk Hj). unfold mtrans, slice in A, B, C. clear H. idx j; idx k; cbn; try exact I; assumption.
Qed.
Lemma canon3 ca inp i j k : admissible3 Symmetric ca inp -> (i < 3)%nat -> (j < 3)%nat -> (k < 3)%nat ->
  inp i j k = if ca then inp (Nat.min i j) (Nat.max i j) k else inp i (Nat.min j k) (Nat.max j k).
Proof.
  intros H Hi Hj Hk. destruct ca.
  - pose proof (H k Hk i j Hi Hj) as A. unfold mtrans, slice in A. clear H. idx i; idx j; cbn; congruence.
  - pose proof (H i Hi j k Hj Hk) as A. unfold mtrans, slice in A. clear H. idx j; idx k; cbn; congruence.
Qed.
Lemma adm_2d_sym ca inp : admissible3 Symmetric2D ca inp -> admissible3 Symmetric ca inp.
Proof. intros H q Hq. apply (H q Hq). Qed.

Ltac eval_fold3 := match goal with |- context [fold_left ?f idx3 ?s] =>
  let t := eval cbv [fold_left idx3 flat_map map app seq IJK_TO_MN_CASE_A IJK_TO_MN_CASE_A_tab IJK_TO_MN_CASE_B IJK_TO_MN_CASE_B_tab nth Nat.eqb Nat.ltb Nat.leb andb orb fst snd] in (fold_left f idx3 s) in
  change (fold_left f idx3 s) with t end.
Lemma tabA i j k : (i < 3)%nat -> (j < 3)%nat -> (k < 3)%nat -> IJK_TO_MN_CASE_A i j k = (IJ_TO_M i j, k).
Proof. intros. idx i; idx j; idx k; reflexivity. Qed.
Lemma tabB i j k : (i < 3)%nat -> (j < 3)%nat -> (k < 3)%nat -> IJK_TO_MN_CASE_B i j k = (i, IJ_TO_M j k).
Proof. intros. idx i; idx j; idx k; reflexivity. Qed.

Lemma same_put d mm : same_kind d (t3_put d mm). Proof. repeat split. Qed.
(** `set_std_array` succeeds exactly on what the representation can hold, and
    then the stored tensor is the given array *)
Theorem C88_set_std_array d inp :
  (admissible3 (t3_rep d) (t3_case_a d) inp /\
   exists d', t3_set_std_array d inp = (d', Ok tt) /\ same_kind d d' /\ eq3 (tens3 d') inp) \/
  (~ admissible3 (t3_rep d) (t3_case_a d) inp /\ exists d' e, t3_set_std_array d inp = (d', Err e) /\ same_kind d d').
Proof.
  destruct d as [ca nr nc mm r]. unfold t3_set_std_array. cbn [t3_rep t3_mat t3_case_a].
  destruct r; cbn [rep_dim Nat.eqb orb].
  - left. split; [intros q Hq; exact I|]. destruct ca.
    + match goal with |- context [err_loop3 ?f mm] => destruct (err_loop3_spec f (fun _ _ _ => True) (fun i j k mm => fst (f i j k mm)) mm) as [(A & B)|(A & B)] end.
      { intros i j k Hi Hj Hk. left. split; [exact I|]. intros s. destruct (IJK_TO_MN_CASE_A i j k). reflexivity. }
      2: { exfalso. apply A. intros i j k ? ? ?. exact I. }
      rewrite B. eexists; split; [reflexivity|]. split; [apply same_put|]. clear A B. eval_fold3.
      intros i j k Hi Hj Hk. tens3t. cbn [t3_case_a t3_put t3_rep t3_mat rep_dim fst]. idx i; idx j; idx k; tred; kfield.
    + match goal with |- context [err_loop3 ?f mm] => destruct (err_loop3_spec f (fun _ _ _ => True) (fun i j k mm => fst (f i j k mm)) mm) as [(A & B)|(A & B)] end.
      { intros i j k Hi Hj Hk. left. split; [exact I|]. intros s. destruct (IJK_TO_MN_CASE_B i j k). reflexivity. }
      2: { exfalso. apply A. intros i j k ? ? ?. exact I. }
      rewrite B. eexists; split; [reflexivity|]. split; [apply same_put|]. clear A B. eval_fold3.
      intros i j k Hi Hj Hk. tens3t. cbn [t3_case_a t3_put t3_rep t3_mat rep_dim fst]. idx i; idx j; idx k; tred; kfield.
  - destruct ca.
    + match goal with |- context [err_loop3 ?f mm] => destruct (err_loop3_spec f (ok3 true 6 inp)
        (fun i j k mm => if (j <? i)%nat then mm else let '(m, n) := IJK_TO_MN_CASE_A i j k in
           if (6 <? m)%nat then mm else if (m <? 3)%nat then wr2 mm m n (inp i j k) else wr2 mm m n (SQRT_2 * inp i j k)) mm) as [(A & B)|(A & B)] end.
      { intros i j k Hi Hj Hk. unfold ok3. rewrite tabA by assumption. destruct (j <? i)%nat.
        - destruct (Reqb_dec (inp i j k) (inp j i k)) as [[-> A]|[-> A]]; cbn [negb]; [left; auto|right; split; [tauto|eauto]].
        - destruct (6 <? IJ_TO_M i j)%nat.
          + destruct (Reqb_dec (inp i j k) 0) as [[-> A]|[-> A]]; cbn [negb]; [left; auto|right; split; [tauto|eauto]].
          + left. split; [exact I|]. intros s. destruct (IJ_TO_M i j <? 3)%nat; reflexivity. }
      * left. apply ok3_sym in A. split; [exact A|]. rewrite B. eexists; split; [reflexivity|]. split; [apply same_put|]. clear B. eval_fold3.
        intros i j k Hi Hj Hk. tens3t. rewrite (canon3 _ inp i j k A) by assumption. clear A. cbn [t3_case_a t3_put t3_rep t3_mat rep_dim fst].
        idx i; idx j; idx k; tred; kfield.
      * right. split; [intros X; apply A, ok3_sym, X|]. destruct B as (s' & e & ->). eexists; eexists; split; [reflexivity|apply same_put].
    + match goal with |- context [err_loop3 ?f mm] => destruct (err_loop3_spec f (ok3 false 6 inp)
        (fun i j k mm => if (k <? j)%nat then mm else let '(m, n) := IJK_TO_MN_CASE_B i j k in
           if (6 <? n)%nat then mm else if (n <? 3)%nat then wr2 mm m n (inp i j k) else wr2 mm m n (SQRT_2 * inp i j k)) mm) as [(A & B)|(A & B)] end.
      { intros i j k Hi Hj Hk. unfold ok3. rewrite tabB by assumption. destruct (k <? j)%nat.
        - destruct (Reqb_dec (inp i j k) (inp i k j)) as [[-> A]|[-> A]]; cbn [negb]; [left; auto|right; split; [tauto|eauto]].
        - destruct (6 <? IJ_TO_M j k)%nat.
          + destruct (Reqb_dec (inp i j k) 0) as [[-> A]|[-> A]]; cbn [negb]; [left; auto|right; split; [tauto|eauto]].
          + left. split; [exact I|]. intros s. destruct (IJ_TO_M j k <? 3)%nat; reflexivity. }
      * left. apply ok3_sym in A. split; [exact A|]. rewrite B. eexists; split; [reflexivity|]. split; [apply same_put|]. clear B. eval_fold3.
        intros i j k Hi Hj Hk. tens3t. rewrite (canon3 _ inp i j k A) by assumption. clear A. cbn [t3_case_a t3_put t3_rep t3_mat rep_dim fst].
        idx i; idx j; idx k; tred; kfield.
      * right. split; [intros X; apply A, ok3_sym, X|]. destruct B as (s' & e & ->). eexists; eexists; split; [reflexivity|apply same_put].
  - destruct ca.
    + match goal with |- context [err_loop3 ?f mm] => destruct (err_loop3_spec f (ok3 true 3 inp)
        (fun i j k mm => if (j <? i)%nat then mm else let '(m, n) := IJK_TO_MN_CASE_A i j k in
           if (3 <? m)%nat then mm else if (m <? 3)%nat then wr2 mm m n (inp i j k) else wr2 mm m n (SQRT_2 * inp i j k)) mm) as [(A & B)|(A & B)] end.
      { intros i j k Hi Hj Hk. unfold ok3. rewrite tabA by assumption. destruct (j <? i)%nat.
        - destruct (Reqb_dec (inp i j k) (inp j i k)) as [[-> A]|[-> A]]; cbn [negb]; [left; auto|right; split; [tauto|eauto]].
        - destruct (3 <? IJ_TO_M i j)%nat.
          + destruct (Reqb_dec (inp i j k) 0) as [[-> A]|[-> A]]; cbn [negb]; [left; auto|right; split; [tauto|eauto]].
          + left. split; [exact I|]. intros s. destruct (IJ_TO_M i j <? 3)%nat; reflexivity. }
      * left. apply ok3_2d in A. split; [exact A|]. rewrite B. eexists; split; [reflexivity|]. split; [apply same_put|]. clear B. eval_fold3.
        intros i j k Hi Hj Hk. tens3t. rewrite (canon3 _ inp i j k (adm_2d_sym _ _ A)) by assumption. cbn [t3_case_a t3_put t3_rep t3_mat rep_dim fst].
        destruct (A k Hk) as (_ & Z1 & Z2). unfold slice in Z1, Z2. clear A.
        idx i; idx j; cbn [Nat.min Nat.max]; rewrite ?Z1, ?Z2; clear Z1 Z2; idx k; tred; kfield.
      * right. split; [intros X; apply A, ok3_2d, X|]. destruct B as (s' & e & ->). eexists; eexists; split; [reflexivity|apply same_put].
    + match goal with |- context [err_loop3 ?f mm] => destruct (err_loop3_spec f (ok3 false 3 inp)
        (fun i j k mm => if (k <? j)%nat then mm else let '(m, n) := IJK_TO_MN_CASE_B i j k in
           if (3 <? n)%nat then mm else if (n <? 3)%nat then wr2 mm m n (inp i j k) else wr2 mm m n (SQRT_2 * inp i j k)) mm) as [(A & B)|(A & B)] end.
      { intros i j k Hi Hj Hk. unfold ok3. rewrite tabB by assumption. destruct (k <? j)%nat.
        - destruct (Reqb_dec (inp i j k) (inp i k j)) as [[-> A]|[-> A]]; cbn [negb]; [left; auto|right; split; [tauto|eauto]].
        - destruct (3 <? IJ_TO_M j k)%nat.
          + destruct (Reqb_dec (inp i j k) 0) as [[-> A]|[-> A]]; cbn [negb]; [left; auto|right; split; [tauto|eauto]].
          + left. split; [exact I|]. intros s. destruct (IJ_TO_M j k <? 3)%nat; reflexivity. }
      * left. apply ok3_2d in A. split; [exact A|]. rewrite B. eexists; split; [reflexivity|]. split; [apply same_put|]. clear B. eval_fold3.
        intros i j k Hi Hj Hk. tens3t. rewrite (canon3 _ inp i j k (adm_2d_sym _ _ A)) by assumption. cbn [t3_case_a t3_put t3_rep t3_mat rep_dim fst].
        destruct (A i Hi) as (_ & Z1 & Z2). unfold slice in Z1, Z2. clear A.
        idx j; idx k; cbn [Nat.min Nat.max]; rewrite ?Z1, ?Z2; clear Z1 Z2; idx i; tred; kfield.
      * right. split; [intros X; apply A, ok3_2d, X|]. destruct B as (s' & e & ->). eexists; eexists; split; [reflexivity|apply same_put].
Qed.
(** after an error the tensor may be partly overwritten *)
Theorem C88_set_std_array_atomic_refuted :
  exists d inp d' e, t3_wf d /\ t3_set_std_array d inp = (d', Err e) /\ exists i j k, (i < 3 /\ j < 3 /\ k < 3)%nat /\ tens3 d' i j k <> tens3 d i j k.
Proof.
  set (inp := fun i j k : nat => if (i =? j)%nat then 1 else if (i =? 1)%nat then 5 else 0).
  exists (t3_new Symmetric true), inp. unfold t3_set_std_array. cbn [t3_new t3_rep t3_case_a rep_dim Nat.eqb orb t3_mat].
  match goal with |- context [err_loop3 ?f ?s] => set (F := err_loop3 f s); assert (E : exists e, snd F = Err e /\ fst F 0%nat 0%nat = 1) end.
  { unfold F, err_loop3. rewrite <- (firstn_skipn 10 idx3), fold_left_app.
    match goal with |- context [fold_left ?f (firstn 10 idx3) ?s] =>
      assert (X : exists mm e, fold_left f (firstn 10 idx3) s = (mm, Err e) /\ mm 0%nat 0%nat = 1) end.
    { cbn [firstn idx3 flat_map map app seq fold_left IJK_TO_MN_CASE_A IJK_TO_MN_CASE_A_tab nth Nat.ltb Nat.leb orb andb].
      unfold inp. cbn [Nat.eqb].
      replace (Reqb 5 0) with false by (symmetry; apply Reqb_false; lra).
      cbn [negb orb]. eexists. eexists. split; reflexivity. }
    destruct X as (mm & e & -> & X). exists e. clear - X.
    generalize (skipn 10 idx3). intros L. induction L as [|[[i j] k] L IH]; [split; [reflexivity|exact X]|exact IH]. }
  destruct F as [mm o]. cbn in E. destruct E as (e & -> & E2). exists (t3_put (t3_new Symmetric true) mm), e.
  split; [reflexivity|]. split; [reflexivity|]. exists 0%nat, 0%nat, 0%nat. split; [lia|]. tens3t. cbn. rewrite E2. lra.
Qed.

(** ** the 9x3 or 3x9 matrix of standard components ([pos9 i j] is the position
    of the pair (i, j), see Tensor4_Thm.v) *)
Definition of_std (case_a : bool) (inp : nat -> nat -> R) : a3 := fun i j k =>
  if case_a then inp (pos9 i j) k else inp i (pos9 j k).
Theorem C88_set_std_matrix d inp : t3_set_std_matrix d inp = t3_set_std_array d (of_std (t3_case_a d) inp).
Proof.
  unfold t3_set_std_matrix, t3_set_std_array. set (dim := rep_dim (t3_rep d)). clearbody dim. unfold of_std.
  destruct (t3_case_a d), ((dim =? 4) || (dim =? 6))%nat.
  all: match goal with |- context [err_loop3 ?f ?s] => set (F := err_loop3 f s) end.
  all: match goal with |- context [err_loop3 ?f ?s] => set (G := err_loop3 f s) end.
  all: assert (E : F = G); [|rewrite E; reflexivity].
  all: unfold F, G, err_loop3; apply fold_left_in; intros [[i j] k] [s o] Q; apply in_idx3 in Q as (Hi & Hj & Hk);
    destruct o as [u|e|]; [|reflexivity|reflexivity].
  1,2: rewrite !tabA by assumption; assert (E : forall i j, (i < 3)%nat -> (j < 3)%nat -> IJ_TO_M i j = pos9 i j) by (clear; intros i j Hi Hj; idx i; idx j; reflexivity);
    rewrite !E by assumption; cbn [fst snd]; reflexivity.
  all: rewrite !tabB by assumption; assert (E : forall i j, (i < 3)%nat -> (j < 3)%nat -> IJ_TO_M i j = pos9 i j) by (clear; intros i j Hi Hj; idx i; idx j; reflexivity);
    rewrite !E by assumption; cbn [fst snd]; reflexivity.
Qed.

(** ** reading all components *)
Lemma tens3_adm d : admissible3 (t3_rep d) (t3_case_a d) (tens3 d).
Proof.
  destruct d as [ca nr nc v r]. intros q Hq. cbn [t3_rep t3_case_a]. destruct r; cbn [admissible2]; [exact I| |].
  - intros i j Hi Hj. unfold mtrans, slice. destruct ca; tens3t; cbn [t3_case_a t3_rep t3_mat]; idx i; idx j; tred; kfield.
  - split; [|split].
    + intros i j Hi Hj. unfold mtrans, slice. destruct ca; tens3t; cbn [t3_case_a t3_rep t3_mat]; idx i; idx j; tred; kfield.
    + unfold slice. destruct ca; tens3t; cbn [t3_case_a t3_rep t3_mat]; tred; kfield.
    + unfold slice. destruct ca; tens3t; cbn [t3_case_a t3_rep t3_mat]; tred; kfield.
Qed.
Theorem C88_as_std_array d : t3_wf d -> eq3 (t3_as_std_array d) (tens3 d).
Proof.
  intros W. assert (G : forall i j k, (i < 3)%nat -> (j < 3)%nat -> (k < 3)%nat -> gs3 d i j k = tens3 d i j k) by (intros; apply gs3_tens; assumption).
  pose proof (tens3_adm d) as A. unfold t3_as_std_array, t3_to_std_array.
  destruct (wf_cases d W) as [(E1 & -> & ->)|(E1 & -> & ->)]; rewrite E1 in *; destruct (t3_rep d); cbn [rep_dim Nat.eqb].
  - intros i j k Hi Hj Hk. rewrite <- G by assumption. clear G A. set (g := gs3 d). clearbody g. idx i; idx j; idx k; reflexivity.
  - intros i j k Hi Hj Hk. rewrite (canon3 _ _ i j k A) by assumption. rewrite <- G by lia. clear G A. set (g := gs3 d). clearbody g.
    idx i; idx j; idx k; reflexivity.
  - intros i j k Hi Hj Hk. rewrite (canon3 _ _ i j k (adm_2d_sym _ _ A)) by assumption. destruct (A k Hk) as (_ & Z1 & Z2). unfold slice in Z1, Z2.
    rewrite <- G in * by lia. clear G A. set (g := gs3 d) in *. clearbody g.
    idx i; idx j; cbn [Nat.min Nat.max]; rewrite ?Z1, ?Z2; idx k; reflexivity.
  - intros i j k Hi Hj Hk. rewrite <- G by assumption. clear G A. set (g := gs3 d). clearbody g. idx i; idx j; idx k; reflexivity.
  - intros i j k Hi Hj Hk. rewrite (canon3 _ _ i j k A) by assumption. rewrite <- G by lia. clear G A. set (g := gs3 d). clearbody g.
    idx i; idx j; idx k; reflexivity.
  - intros i j k Hi Hj Hk. rewrite (canon3 _ _ i j k (adm_2d_sym _ _ A)) by assumption. destruct (A i Hi) as (_ & Z1 & Z2). unfold slice in Z1, Z2.
    rewrite <- G in * by lia. clear G A. set (g := gs3 d) in *. clearbody g.
    idx j; idx k; cbn [Nat.min Nat.max]; rewrite ?Z1, ?Z2; idx i; reflexivity.
Qed.
(** a caller-supplied output array is not cleared by the 2D variant *)
Theorem C88_to_std_array_stale_refuted :
  exists d dd, t3_wf d /\ t3_rep d = Symmetric2D /\ tens3 d 0%nat 2%nat 1%nat = 0 /\ t3_to_std_array d dd 0%nat 2%nat 1%nat = 7.
Proof.
  exists (t3_new Symmetric2D true), (fun _ _ _ => 7). split; [reflexivity|]. split; [reflexivity|]. split.
  - apply (proj2 (proj2 (proj2 (C88_new Symmetric2D true)))); lia.
  - unfold t3_to_std_array. cbn [t3_case_a t3_new t3_nrow t3_ncol rep_dim Nat.eqb].
    set (g := gs3 (t3_new Symmetric2D true)). clearbody g. reflexivity.
Qed.
Theorem C88_roundtrip r ca inp : admissible3 r ca inp ->
  exists d, t3_from_std_array inp r ca = Ok d /\ t3_wf d /\ eq3 (t3_as_std_array d) inp.
Proof.
  intros H. unfold t3_from_std_array. destruct (C88_new r ca) as (W & N1 & N2 & _).
  destruct (C88_set_std_array (t3_new r ca) inp) as [(_ & d & E & (S1 & S2 & S3 & S4) & F)|(K & _)]; [|rewrite N1, N2 in K; contradiction].
  rewrite E. exists d. split; [reflexivity|].
  assert (W' : t3_wf d) by (unfold t3_wf in *; rewrite S1, S2, S3, S4; exact W). split; [exact W'|].
  intros i j k Hi Hj Hk. rewrite C88_as_std_array, F by assumption. reflexivity.
Qed.
Theorem C88_from_std_array_bad r ca inp : ~ admissible3 r ca inp -> exists e, t3_from_std_array inp r ca = Err e.
Proof.
  intros H. unfold t3_from_std_array. destruct (C88_new r ca) as (_ & N1 & N2 & _).
  destruct (C88_set_std_array (t3_new r ca) inp) as [(K & _)|(_ & d & e & E & _)]; [rewrite N1, N2 in K; contradiction|].
  rewrite E. cbn. eauto.
Qed.
Theorem C88_as_std_matrix d : t3_wf d -> exists mm, t3_as_std_matrix d = Ok (if t3_case_a d then (9, 3)%nat else (3, 9)%nat, mm) /\
  eq3 (of_std (t3_case_a d) mm) (tens3 d).
Proof.
  intros W. unfold t3_as_std_matrix, t3_to_std_matrix, of_std, eq3. destruct (t3_case_a d) eqn:Ea; cbn [Nat.eqb andb assert_ bind]; eexists; (split; [reflexivity|]);
    intros i j k Hi Hj Hk; rewrite <- gs3_tens by assumption; set (g := gs3 d); clearbody g; idx i; idx j; idx k; reflexivity.
Qed.
(** a matrix of standard components comes back unchanged; a matrix the
    representation cannot hold is refused *)
Theorem C88_matrix_roundtrip r ca inp : admissible3 r ca (of_std ca inp) ->
  exists d mm, t3_from_std_matrix inp r ca = Ok d /\ t3_as_std_matrix d = Ok (if ca then (9, 3)%nat else (3, 9)%nat, mm) /\
    forall p q, (p < if ca then 9 else 3)%nat -> (q < if ca then 3 else 9)%nat -> mm p q = inp p q.
Proof.
  intros H. destruct (C88_new r ca) as (W & N1 & N2 & _). unfold t3_from_std_matrix. rewrite C88_set_std_matrix, N1.
  destruct (C88_set_std_array (t3_new r ca) (of_std ca inp)) as [(_ & d & E & (S1 & S2 & S3 & S4) & F)|(K & _)]; [|rewrite N1, N2 in K; contradiction].
  rewrite E. assert (W' : t3_wf d) by (unfold t3_wf in *; rewrite S1, S2, S3, S4; exact W).
  destruct (C88_as_std_matrix d W') as (mm & A & B). rewrite S1, N1 in A, B. exists d, mm. split; [reflexivity|]. split; [exact A|].
  assert (K : forall p, (p < 9)%nat -> exists i j, (i < 3)%nat /\ (j < 3)%nat /\ p = pos9 i j).
  { clear. intros p Hp. idx9 p; [exists 0%nat, 0%nat|exists 1%nat, 1%nat|exists 2%nat, 2%nat|exists 0%nat, 1%nat|exists 1%nat, 2%nat|
      exists 0%nat, 2%nat|exists 1%nat, 0%nat|exists 2%nat, 1%nat|exists 2%nat, 0%nat]; repeat split; auto with arith; lia. }
  intros p q Hp Hq. destruct ca.
  - destruct (K p Hp) as (i & j & Hi & Hj & ->). pose proof (B i j q Hi Hj Hq) as X. rewrite F in X by assumption. exact X.
  - destruct (K q Hq) as (i & j & Hi & Hj & ->). pose proof (B p i j Hp Hi Hj) as X. rewrite F in X by assumption. exact X.
Qed.
Theorem C88_from_std_matrix_bad r ca inp : ~ admissible3 r ca (of_std ca inp) -> exists e, t3_from_std_matrix inp r ca = Err e.
Proof.
  intros H. unfold t3_from_std_matrix. rewrite C88_set_std_matrix. destruct (C88_new r ca) as (_ & N1 & _ & _). rewrite N1.
  exact (C88_from_std_array_bad r ca _ H).
Qed.

(** ** setting one component of a symmetric tensor *)
Definition pair3 (case_a : bool) (i j k : nat) : (nat * nat) * nat := if case_a then ((i, j), k) else ((j, k), i).
(** the two positions a component of a minor-symmetric array occupies *)
Definition same_comp (case_a : bool) (i j k a b c : nat) : Prop :=
  let '((p, q), s) := pair3 case_a i j k in let '((p', q'), s') := pair3 case_a a b c in
  s' = s /\ ((p' = p /\ q' = q) \/ (p' = q /\ q' = p)).
Theorem C88_sym_set_std d i j k value : t3_wf d -> t3_rep d <> General -> (i < 3)%nat -> (j < 3)%nat -> (k < 3)%nat ->
  (t3_rep d = Symmetric2D -> let '((p, q), _) := pair3 (t3_case_a d) i j k in in_plane p q) ->
  exists d', t3_sym_set_std d i j k value = Ok d' /\ same_kind d d' /\
    forall a b c, (a < 3)%nat -> (b < 3)%nat -> (c < 3)%nat ->
      (same_comp (t3_case_a d) i j k a b c -> tens3 d' a b c = value) /\
      (~ same_comp (t3_case_a d) i j k a b c -> tens3 d' a b c = tens3 d a b c).
Proof.
  destruct d as [ca nr nc v r]. intros W Nr Hi Hj Hk P. cbn [t3_rep t3_case_a] in *. unfold t3_sym_set_std.
  assert (E : rep_eqb r General = false) by (destruct r; [congruence|reflexivity|reflexivity]).
  cbn [t3_rep t3_case_a]. rewrite E. cbn [negb assert_ bind].
  destruct (Nat.ltb_spec i 3), (Nat.ltb_spec j 3), (Nat.ltb_spec k 3); try lia. cbn [andb negb]. clear W E H H0 H1.
  unfold same_comp, pair3, in_plane in *.
  destruct ca; (destruct r; [congruence| |specialize (P eq_refl)]).
  1,2: idx i; idx j; try (exfalso; lia);
    cbn [IJK_TO_MN_SYM_CASE_A IJK_TO_MN_SYM_CASE_A_tab nth]; idx k; cbn [nth]; cbn [Nat.ltb Nat.leb]; (eexists; split; [reflexivity|]; split; [apply same_put|]);
    intros a b c Ha Hb Hc; tens3t; cbn [t3_put t3_mat t3_rep t3_case_a]; idx a; idx b; idx c; (split; intros S; try (exfalso; lia)); clear; tred; kfield.
  all: idx j; idx k; try (exfalso; lia);
    idx i; cbn [IJK_TO_MN_SYM_CASE_B IJK_TO_MN_SYM_CASE_B_tab nth]; cbn [Nat.ltb Nat.leb]; (eexists; split; [reflexivity|]; split; [apply same_put|]);
    intros a b c Ha Hb Hc; tens3t; cbn [t3_put t3_mat t3_rep t3_case_a]; idx a; idx b; idx c; (split; intros S; try (exfalso; lia)); clear; tred; kfield.
Qed.
(** setting an out-of-plane component of a 2D tensor is accepted and lost: the
    call succeeds, and every component reads as before, including the one set *)
Theorem C88_sym_set_std_out_of_plane_refuted d i j k value : t3_wf d -> t3_rep d = Symmetric2D -> (i < 3)%nat -> (j < 3)%nat -> (k < 3)%nat ->
  (let '((p, q), _) := pair3 (t3_case_a d) i j k in ~ in_plane p q) ->
  exists d', t3_sym_set_std d i j k value = Ok d' /\ t3_get_std d' i j k = Ok 0 /\ eq3 (tens3 d') (tens3 d).
Proof.
  destruct d as [ca nr nc v r]. intros W Er Hi Hj Hk P. cbn [t3_rep t3_case_a] in *. subst r. unfold t3_sym_set_std.
  cbn [t3_rep rep_eqb negb assert_ bind t3_case_a].
  destruct (Nat.ltb_spec i 3), (Nat.ltb_spec j 3), (Nat.ltb_spec k 3); try lia. cbn [andb negb]. clear H H0 H1.
  assert (Wp : forall mm, t3_wf (t3_put (mkT3 ca nr nc v Symmetric2D) mm)) by (intros; exact W).
  assert (D : exists mm, (if ca
     then let '(m, n) := IJK_TO_MN_SYM_CASE_A i j k in
       Ok (t3_put (mkT3 ca nr nc v Symmetric2D) (if (m <? 3)%nat then wr2 (t3_mat (mkT3 ca nr nc v Symmetric2D)) m n value else wr2 (t3_mat (mkT3 ca nr nc v Symmetric2D)) m n (value * SQRT_2)))
     else let '(m, n) := IJK_TO_MN_SYM_CASE_B i j k in
       Ok (t3_put (mkT3 ca nr nc v Symmetric2D) (if (n <? 3)%nat then wr2 (t3_mat (mkT3 ca nr nc v Symmetric2D)) m n value else wr2 (t3_mat (mkT3 ca nr nc v Symmetric2D)) m n (value * SQRT_2))))
     = Ok (t3_put (mkT3 ca nr nc v Symmetric2D) mm) /\ (forall m n, (if ca then m < 4 /\ n < 3 else m < 3 /\ n < 4)%nat -> mm m n = v m n)).
  { unfold pair3, in_plane in P. destruct ca.
    - idx i; idx j; try (exfalso; lia); idx k; cbn [IJK_TO_MN_SYM_CASE_A IJK_TO_MN_SYM_CASE_A_tab nth Nat.ltb Nat.leb]; (eexists; split; [reflexivity|]);
        intros m n [Hm Hn]; unfold wr2; cbn [t3_mat]; destruct m as [|[|[|[|m]]]]; try lia; reflexivity.
    - idx j; idx k; try (exfalso; lia); idx i; cbn [IJK_TO_MN_SYM_CASE_B IJK_TO_MN_SYM_CASE_B_tab nth Nat.ltb Nat.leb]; (eexists; split; [reflexivity|]);
        intros m n [Hm Hn]; unfold wr2; cbn [t3_mat]; destruct n as [|[|[|[|n]]]]; try lia; rewrite ?Bool.andb_false_r; reflexivity. }
  destruct D as (mm & D1 & D2). exists (t3_put (mkT3 ca nr nc v Symmetric2D) mm). split; [exact D1|].
  assert (T : eq3 (tens3 (t3_put (mkT3 ca nr nc v Symmetric2D) mm)) (tens3 (mkT3 ca nr nc v Symmetric2D))).
  { intros a b c Ha Hb Hc. unfold tens3. cbn [t3_case_a t3_put t3_rep t3_mat rep_dim]. destruct ca; apply summ_ext_eq; intros m Hm; rewrite D2 by lia; reflexivity. }
  split; [|exact T]. rewrite C88_get_std by (auto; apply Wp). f_equal. rewrite T by assumption. clear - P Hi Hj Hk.
  tens3t. cbn [t3_case_a t3_rep t3_mat]. unfold pair3, in_plane in P. destruct ca.
  - idx i; idx j; try (exfalso; lia); tred; kfield.
  - idx j; idx k; try (exfalso; lia); tred; kfield.
Qed.

(** ** operations *)
Lemma wf_dims_le d : t3_wf d -> (t3_nrow d <= 9)%nat /\ (t3_ncol d <= 9)%nat.
Proof. intros W. destruct (wf_cases d W) as [(_ & -> & ->)|(_ & -> & ->)]; destruct (t3_rep d); cbn; lia. Qed.
(** two nested loops that write each entry once *)
Lemma loop_S {S : Type} n (f : nat -> S -> S) s : loop (Datatypes.S n) f s = f n (loop n f s).
Proof. unfold loop. rewrite seq_S, fold_left_app. reflexivity. Qed.
Lemma fill_row (h : nat -> R -> R) m nc (mm : nat -> nat -> R) p q :
  loop nc (fun n mm => wr2 mm m n (h n (mm m n))) mm p q = if ((p =? m) && (q <? nc))%nat then h q (mm p q) else mm p q.
Proof.
  revert p q. induction nc; intros p q.
  - cbn [Nat.ltb Nat.leb]. rewrite Bool.andb_false_r. reflexivity.
  - rewrite loop_S. unfold wr2 at 1. rewrite !IHnc. rewrite Nat.eqb_refl, Nat.ltb_irrefl. cbn [andb].
    destruct (Nat.eqb_spec p m), (Nat.eqb_spec q nc), (Nat.ltb_spec q nc), (Nat.ltb_spec q (S nc)); cbn [andb]; subst; try lia; reflexivity.
Qed.
Lemma fill (h : nat -> nat -> R -> R) nr nc (mm : nat -> nat -> R) p q :
  loop nr (fun m mm => loop nc (fun n mm => wr2 mm m n (h m n (mm m n))) mm) mm p q =
  if ((p <? nr) && (q <? nc))%nat then h p q (mm p q) else mm p q.
Proof.
  revert p q. induction nr; intros p q; [reflexivity|]. rewrite loop_S, (fill_row (h nr) nr nc). rewrite IHnr.
  destruct (Nat.eqb_spec p nr), (Nat.ltb_spec p nr), (Nat.ltb_spec p (S nr)), (Nat.ltb_spec q nc); cbn [andb]; subst; try lia; reflexivity.
Qed.
Lemma rep_eqb_true r s : rep_eqb r s = true <-> r = s.
Proof. destruct r, s; cbn; split; congruence. Qed.
Lemma assert_true b : b = true -> assert_ b = Ok tt. Proof. intros ->. reflexivity. Qed.

Theorem C88_update d alpha other : t3_wf d -> t3_rep other = t3_rep d -> t3_case_a other = t3_case_a d ->
  exists d', t3_update d alpha other = Ok d' /\ same_kind d d' /\ eq3 (tens3 d') (fun i j k => tens3 d i j k + alpha * tens3 other i j k).
Proof.
  intros W E1 E2. unfold t3_update. rewrite E1, E2, (proj2 (rep_eqb_true _ _) eq_refl), Bool.eqb_reflx. cbn [assert_ bind].
  eexists. split; [reflexivity|]. split; [apply same_put|]. intros i j k Hi Hj Hk. unfold tens3. cbn [t3_put t3_case_a t3_rep t3_mat]. rewrite E1, E2.
  destruct (wf_cases d W) as [(E & -> & ->)|(E & -> & ->)]; rewrite E, <- summ_scal, <- summ_plus; apply summ_ext_eq; intros m Hm;
    rewrite (fill (fun m n x => x + alpha * t3_mat other m n));
    (destruct (Nat.ltb_spec m (rep_dim (t3_rep d))); [|lia]);
    [destruct (Nat.ltb_spec k 3)|destruct (Nat.ltb_spec i 3)]; try lia; cbn [andb]; ring.
Qed.
Theorem C88_add c alpha a beta b : t3_wf a -> t3_rep b = t3_rep a -> t3_rep c = t3_rep a -> t3_case_a b = t3_case_a a -> t3_case_a c = t3_case_a a ->
  exists d', t3_add c alpha a beta b = Ok d' /\ same_kind c d' /\ eq3 (tens3 d') (fun i j k => alpha * tens3 a i j k + beta * tens3 b i j k).
Proof.
  intros W E1 E2 E3 E4. unfold t3_add. rewrite E1, E2, E3, E4, (proj2 (rep_eqb_true _ _) eq_refl), Bool.eqb_reflx. cbn [assert_ bind].
  eexists. split; [reflexivity|]. split; [apply same_put|]. intros i j k Hi Hj Hk. unfold tens3. cbn [t3_put t3_case_a t3_rep t3_mat]. rewrite E1, E2, E3, E4.
  destruct (wf_cases a W) as [(E & -> & ->)|(E & -> & ->)]; rewrite E, <- !summ_scal, <- summ_plus; apply summ_ext_eq; intros m Hm;
    rewrite (fill (fun m n _ => alpha * t3_mat a m n + beta * t3_mat b m n));
    (destruct (Nat.ltb_spec m (rep_dim (t3_rep a))); [|lia]);
    [destruct (Nat.ltb_spec k 3)|destruct (Nat.ltb_spec i 3)]; try lia; cbn [andb]; ring.
Qed.
(** T = alpha H . u, with T_ij = alpha sum_k H_ijk u_k *)
Theorem C88_dot_t1 tt alpha hh u : t3_wf hh -> t3_case_a hh = true -> t2_rep tt = t3_rep hh ->
  exists t', t3_dot_t1 tt alpha hh u = Ok t' /\ t2_rep t' = t2_rep tt /\
    eq2 (tens2 t') (fun i j => alpha * sum3 (fun k => tens3 hh i j k * u k)).
Proof.
  intros W Ea E. unfold t3_dot_t1. rewrite Ea, E, (proj2 (rep_eqb_true _ _) eq_refl). cbn [assert_ bind].
  eexists. split; [reflexivity|]. split; [reflexivity|]. intros i j Hi Hj. unfold sum3. tens3t. tens. rewrite Ea.
  destruct (wf_cases hh W) as [(_ & -> & _)|(X & _)]; [|congruence]. unfold t2_dim. cbn [t2_rep t2_vec]. clear - Hi Hj.
  destruct (t3_rep hh); idx i; idx j; tred; kfield.
Qed.
(** u = alpha H : T, with u_i = alpha sum_jk H_ijk T_jk, whatever u held before *)
Theorem C88_ddot_t2 u alpha hh tt : t3_wf hh -> t3_case_a hh = false -> t2_rep tt = t3_rep hh ->
  exists u', t3_ddot_t2 u alpha hh tt = Ok u' /\
    forall i, (i < 3)%nat -> u' i = alpha * sum3 (fun j => sum3 (fun k => tens3 hh i j k * tens2 tt j k)).
Proof.
  intros W Ea E. unfold t3_ddot_t2. rewrite Ea, E, (proj2 (rep_eqb_true _ _) eq_refl). cbn [negb assert_ bind].
  eexists. split; [reflexivity|]. intros i Hi. unfold sum3. tens3t. tens. rewrite Ea.
  destruct (wf_cases hh W) as [(X & _)|(_ & _ & ->)]; [congruence|]. unfold t2_dim. rewrite E. clear - Hi.
  destruct (t3_rep hh); idx i; tred; kfield.
Qed.
(** operands of another kind are refused *)
Theorem C88_mismatch_panics d alpha other tt u :
  (t3_rep other <> t3_rep d \/ t3_case_a other <> t3_case_a d -> t3_update d alpha other = Panic) /\
  (t3_rep other <> t3_rep d \/ t3_case_a other <> t3_case_a d -> forall c beta, t3_add c alpha d beta other = Panic) /\
  (t3_case_a d = false \/ t2_rep tt <> t3_rep d -> t3_dot_t1 tt alpha d u = Panic) /\
  (t3_case_a d = true \/ t2_rep tt <> t3_rep d -> t3_ddot_t2 u alpha d tt = Panic).
Proof.
  assert (B : forall r s, r <> s -> rep_eqb r s = false) by (intros r s H; destruct (rep_eqb r s) eqn:E; [apply rep_eqb_true in E; contradiction|reflexivity]).
  assert (C : forall a b : bool, a <> b -> Bool.eqb a b = false) by (intros a b H; destruct a, b; try reflexivity; contradiction H; reflexivity).
  splits.
  - intros [H|H]; unfold t3_update; [rewrite B by assumption; reflexivity|]. rewrite (C _ _ H). destruct (rep_eqb _ _); reflexivity.
  - intros [H|H] c beta; unfold t3_add; [rewrite B by assumption; reflexivity|]. rewrite (C _ _ H).
    destruct (rep_eqb (t3_rep other) _), (rep_eqb (t3_rep c) _); reflexivity.
  - intros [H|H]; unfold t3_dot_t1; [rewrite H; reflexivity|]. rewrite B by assumption. destruct (t3_case_a d); reflexivity.
  - intros [H|H]; unfold t3_ddot_t2; [rewrite H; reflexivity|]. rewrite B by assumption. destruct (t3_case_a d); reflexivity.
Qed.

(** a minor-symmetric array that is not symmetric in all its indices goes
    through and comes back; its mirror image is refused in case A *)
Example C88_example : let a : a3 := fun i j k => INR (i + j) + 10 * INR k in
  admissible3 Symmetric true a /\ ~ admissible3 Symmetric false a /\
  exists d, t3_from_std_array a Symmetric true = Ok d /\ t3_get_std d 2 1 0 = Ok 3 /\ t3_get_std d 0 1 2 = Ok 21.
Proof.
  intros a. assert (A : admissible3 Symmetric true a).
  { intros q Hq i j Hi Hj. unfold mtrans, slice, a. rewrite (Nat.add_comm j i). reflexivity. }
  split; [exact A|]. split.
  - intros B. pose proof (B 0%nat ltac:(lia) 0%nat 1%nat ltac:(lia) ltac:(lia)) as X. unfold mtrans, slice, a in X. cbn in X. lra.
  - destruct (C88_roundtrip _ _ _ A) as (d & E & W & F). exists d. split; [exact E|].
    split; rewrite C88_get_std by (auto; lia); rewrite <- C88_as_std_array by (auto; lia); rewrite F by lia; f_equal; unfold a; cbn; lra.
Qed.
Print Assumptions C88_set_std_array.
Print Assumptions C88_sym_set_std.
Print Assumptions C88_ddot_t2.
