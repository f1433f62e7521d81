(** Theorems about fourth-order tensors: C61, the Kelvin-Mandel matrix is a
    faithful isometry ([tens4 d] is the 3x3x3x3 array whose components are
    stored in [d], see Tensor_Spec.v). *)
From Coq Require Import Reals Lra List.
From Verif Require Import Base RBase Tensor_Model Tensor4_Model Tensor_Spec Tensor_Lib Tensor_Thm.
Import ListNotations.
Open Scope R_scope.

Ltac in4 := intros ?i ?j ?k ?l ?Hi ?Hj ?Hk ?Hl.
Ltac idx4c := match goal with i : nat, j : nat, k : nat, l : nat, _ : (?i < 3)%nat, _ : (?j < 3)%nat, _ : (?k < 3)%nat, _ : (?l < 3)%nat |- _ =>
  idx i; idx j; idx k; idx l end.

Theorem C61_t4_get_std d i j k l : (i < 3)%nat -> (j < 3)%nat -> (k < 3)%nat -> (l < 3)%nat ->
  t4_get_std d i j k l = Ok (tens4 d i j k l).
Proof.
  intros Hi Hj Hk Hl. tens4t. destruct d as [[| |] v ul]; unfold t4_get_std, t4_dim; cbn [t4_rep t4_mat rep_dim];
    idx i; idx j; idx k; idx l; tred; f_equal; kfield.
Qed.
Lemma gs4_tens d i j k l : (i < 3)%nat -> (j < 3)%nat -> (k < 3)%nat -> (l < 3)%nat -> gs4 d i j k l = tens4 d i j k l.
Proof. intros. unfold gs4. rewrite C61_t4_get_std by assumption. reflexivity. Qed.

(** ** setting from a 3x3x3x3 array *)
Definition forall4 (P : nat -> nat -> nat -> nat -> Prop) : Prop := forall i j k l,
  (i < 3)%nat -> (j < 3)%nat -> (k < 3)%nat -> (l < 3)%nat -> P i j k l.
Lemma in_idx4 i j k l : In (i, j, k, l) idx4 <-> (i < 3 /\ j < 3 /\ k < 3 /\ l < 3)%nat.
Proof.
  unfold idx4. split.
  - intros H. apply in_flat_map in H as (a & Ha & H). apply in_flat_map in H as (b & Hb & H).
    apply in_flat_map in H as (c & Hc & H). apply in_map_iff in H as (e & E & He). injection E as <- <- <- <-.
    apply in_seq in Ha, Hb, Hc, He. lia.
  - intros (Hi & Hj & Hk & Hl). 
    apply in_flat_map. exists i. split; [apply in_seq; lia|]. apply in_flat_map. exists j. split; [apply in_seq; lia|].
    apply in_flat_map. exists k. split; [apply in_seq; lia|]. apply in_map_iff. exists l. split; [reflexivity|]. apply in_seq. lia.
Qed.
(** a loop whose body fails or not independently of the state: it ends well
    exactly when no body fails, and then the bodies have run in order *)
Lemma err_loop_spec {S : Type} (f : nat -> nat -> nat -> nat -> S -> S * res unit)
    (ok : nat -> nat -> nat -> nat -> Prop) (g : nat -> nat -> nat -> nat -> S -> S) s :
  forall4 (fun i j k l => ok i j k l /\ (forall s, f i j k l s = (g i j k l s, Ok tt)) \/
                          ~ ok i j k l /\ (forall s, exists s' e, f i j k l s = (s', Err e))) ->
  (forall4 ok /\ err_loop f s = (fold_left (fun s ijkl => let '(i, j, k, l) := ijkl in g i j k l s) idx4 s, Ok tt)) \/
  (~ forall4 ok /\ exists s' e, err_loop f s = (s', Err e)).
Proof.
  intros H. unfold err_loop.
  assert (K : forall L s, (forall x, In x L -> In x idx4) ->
    ((forall i j k l, In (i, j, k, l) L -> ok i j k l) /\
     fold_left (fun acc ijkl => let '(i, j, k, l) := ijkl in match acc with (s, Ok _) => f i j k l s | stop => stop end) L (s, Ok tt)
     = (fold_left (fun s ijkl => let '(i, j, k, l) := ijkl in g i j k l s) L s, Ok tt)) \/
    (~ (forall i j k l, In (i, j, k, l) L -> ok i j k l) /\
     exists s' e, fold_left (fun acc ijkl => let '(i, j, k, l) := ijkl in match acc with (s, Ok _) => f i j k l s | stop => stop end) L (s, Ok tt) = (s', Err e))).
  { clear s. induction L as [|[[[i j] k] l] L IH]; intros s HL.
    - left. split; [intros ? ? ? ? []|reflexivity].
    - assert (Hi : In (i, j, k, l) idx4) by (apply HL; left; reflexivity). apply in_idx4 in Hi as (Hi & Hj & Hk & Hl).
      destruct (H i j k l Hi Hj Hk Hl) as [(O & E)|(O & E)]; cbn [fold_left].
      + rewrite E. destruct (IH (g i j k l s)) as [(A & B)|(A & B)]; [intros; apply HL; right; assumption| |].
        * left. split; [|exact B]. intros a b c e [X|X]; [injection X as <- <- <- <-; exact O|apply A; exact X].
        * right. split; [|exact B]. intros X. apply A. intros. apply X. right. assumption.
      + right. split; [intros X; apply O, X; left; reflexivity|]. destruct (E s) as (s' & e & ->).
        exists s', e. clear. induction L as [|[[[i j] k] l] L IH]; [reflexivity|exact IH]. }
  destruct (K idx4 s ltac:(auto)) as [(A & B)|(A & B)].
  - left. split; [|exact B]. intros i j k l. intros. apply A, in_idx4. auto.
  - right. split; [|exact B]. intros X. apply A. intros i j k l Q. apply in_idx4 in Q. apply X; lia.
Qed.

Lemma canon d i j k l : minor_sym d -> (i < 3)%nat -> (j < 3)%nat -> (k < 3)%nat -> (l < 3)%nat ->
  d i j k l = d (Nat.min i j) (Nat.max i j) (Nat.min k l) (Nat.max k l).
Proof.
  intros H Hi Hj Hk Hl.
  assert (E : d i j k l = d (Nat.min i j) (Nat.max i j) k l).
  { destruct (Nat.le_ge_cases i j).
    - rewrite Nat.min_l, Nat.max_r by lia. reflexivity.
    - rewrite Nat.min_r, Nat.max_l by lia. apply H; assumption. }
  rewrite E. destruct (Nat.le_ge_cases k l).
  - rewrite (Nat.min_l k l), (Nat.max_r k l) by lia. reflexivity.
  - rewrite (Nat.min_r k l), (Nat.max_l k l) by lia. apply H; lia.
Qed.
(** the check made inside the loop of `set_std_array` *)
Definition ok_sym (max : nat) (inp : a4) (i j k l : nat) : Prop :=
  if ((j <? i) || (l <? k))%nat then
    inp i j k l = inp j i k l /\ inp i j k l = inp i j l k /\ inp i j k l = inp j i l k
  else let '(m, n) := IJKL_TO_MN i j k l in
    if ((max <? m) || (max <? n))%nat then inp i j k l = 0 else True.
Lemma ok_sym_minor max inp : forall4 (ok_sym max inp) -> minor_sym inp.
Proof.
  intros H i j k l Hi Hj Hk Hl.
  pose proof (H i j k l Hi Hj Hk Hl) as A. pose proof (H j i k l Hj Hi Hk Hl) as B. pose proof (H i j l k Hi Hj Hl Hk) as C.
  unfold ok_sym in *.
  destruct (Nat.lt_total i j) as [X|[->|X]], (Nat.lt_total k l) as [Y|[->|Y]];
    repeat match goal with
    | K : context [(?p <? ?q)%nat] |- _ =>
        first [replace (p <? q)%nat with true in K by (symmetry; apply Nat.ltb_lt; lia)
              |replace (p <? q)%nat with false in K by (symmetry; apply Nat.ltb_ge; lia)]; cbn [orb] in K
    end; clear H; intuition congruence.
Qed.
Lemma ok_sym6 inp : forall4 (ok_sym 6 inp) <-> minor_sym inp.
Proof.
  split; [apply ok_sym_minor|]. intros H i j k l Hi Hj Hk Hl. unfold ok_sym.
  destruct (((j <? i) || (l <? k))%nat) eqn:E.
  - pose proof (H i j k l Hi Hj Hk Hl) as [A B]. pose proof (H j i k l Hj Hi Hk Hl) as [C D]. repeat split; congruence.
  - idx i; idx j; try discriminate E; idx k; idx l; try discriminate E; exact I.
Qed.
Lemma ok_sym3 inp : forall4 (ok_sym 3 inp) <-> admissible4 Symmetric2D inp.
Proof.
  split.
  - intros H. pose proof (ok_sym_minor _ _ H) as M. split; [exact M|].
    intros i j k l Hi Hj Hk Hl N. rewrite (canon inp i j k l M) by assumption.
    pose proof (H (Nat.min i j) (Nat.max i j) (Nat.min k l) (Nat.max k l) ltac:(lia) ltac:(lia) ltac:(lia) ltac:(lia)) as K.
    unfold ok_sym, in_plane in *. clear H M.
    idx i; idx j; idx k; idx l; cbn in K |- *; try exact K; exfalso; apply N; lia.
  - intros [H Z] i j k l Hi Hj Hk Hl. unfold ok_sym.
    destruct (((j <? i) || (l <? k))%nat) eqn:E.
    + pose proof (H i j k l Hi Hj Hk Hl) as [A B]. pose proof (H j i k l Hj Hi Hk Hl) as [C D]. repeat split; congruence.
    + pose proof (Z i j k l Hi Hj Hk Hl) as K. clear Z H. unfold in_plane in K.
      idx i; idx j; try discriminate E; idx k; idx l; try discriminate E; cbn; try exact I; apply K; lia.
Qed.
Lemma bool_prop (b : bool) : b = true \/ b = false. Proof. destruct b; auto. Qed.

(** runs the loop over the 81 index tuples *)
Ltac eval_fold := match goal with |- context [fold_left ?f idx4 ?s] =>
  let t := eval cbv [fold_left idx4 flat_map map app seq IJKL_TO_MN IJKL_TO_MN_tab nth Nat.eqb Nat.ltb Nat.leb andb orb fst snd] in (fold_left f idx4 s) in
  change (fold_left f idx4 s) with t end.

Theorem C61_t4_set_std_array d inp :
  (admissible4 (t4_rep d) inp /\
   exists d', t4_set_std_array d inp = (d', Ok tt) /\ t4_rep d' = t4_rep d /\ eq4 (tens4 d') inp) \/
  (~ admissible4 (t4_rep d) inp /\ exists d' e, t4_set_std_array d inp = (d', Err e) /\ t4_rep d' = t4_rep d).
Proof.
  destruct d as [r mm ul]. unfold t4_set_std_array, t4_dim. cbn [t4_rep t4_mat].
  destruct r; cbn [rep_dim Nat.eqb orb].
  - left. split; [exact I|].
    match goal with |- context [err_loop ?f mm] => destruct (err_loop_spec f (fun _ _ _ _ => True)
      (fun i j k l mm => fst (f i j k l mm)) mm) as [(A & B)|(A & B)] end.
    { in4. left. split; [exact I|]. intros s. destruct (IJKL_TO_MN i j k l). reflexivity. }
    2: { exfalso. apply A. in4. exact I. }
    rewrite B. eexists; split; [reflexivity|]. split; [reflexivity|]. clear A B. eval_fold.
    in4. tens4t. cbn [t4_dim t4_put t4_rep t4_mat rep_dim fst]. idx i; idx j; idx k; idx l; tred; kfield.
  - match goal with |- context [err_loop ?f mm] => destruct (err_loop_spec f (ok_sym 6 inp)
      (fun i j k l mm => if ((j <? i) || (l <? k))%nat then mm else
         let '(m, n) := IJKL_TO_MN i j k l in
         if ((6 <? m) || (6 <? n))%nat then mm else
         if ((m <? 3) && (n <? 3))%nat then wr2 mm m n (inp i j k l)
          else if ((2 <? m) && (2 <? n))%nat then wr2 mm m n (2 * inp i j k l)
          else wr2 mm m n (SQRT_2 * inp i j k l)) mm) as [(A & B)|(A & B)] end.
    { intros i j k l Hi Hj Hk Hl. unfold ok_sym. destruct ((j <? i) || (l <? k))%nat.
      - destruct (Reqb_dec (inp i j k l) (inp j i k l)) as [[-> A]|[-> A]]; cbn [negb orb]; [|right; split; [tauto|eauto]].
        destruct (Reqb_dec (inp i j k l) (inp i j l k)) as [[-> B]|[-> B]]; cbn [negb orb]; [|right; split; [tauto|eauto]].
        destruct (Reqb_dec (inp i j k l) (inp j i l k)) as [[-> C]|[-> C]]; cbn [negb orb]; [|right; split; [tauto|eauto]].
        left. auto.
      - destruct (IJKL_TO_MN i j k l) as [m n]. destruct ((6 <? m) || (6 <? n))%nat.
        + destruct (Reqb_dec (inp i j k l) 0) as [[-> A]|[-> A]]; cbn [negb]; [left; auto|right; split; [tauto|eauto]].
        + left. split; [exact I|]. intros s. destruct ((m <? 3) && (n <? 3))%nat, ((2 <? m) && (2 <? n))%nat; reflexivity. }
    + left. apply ok_sym6 in A. split; [exact A|]. rewrite B. eexists; split; [reflexivity|]. split; [reflexivity|]. clear B. eval_fold.
      in4. tens4t. rewrite (canon inp i j k l A) by assumption. clear A.
      cbn [t4_dim t4_put t4_rep t4_mat rep_dim fst]. idx i; idx j; idx k; idx l; tred; kfield.
    + right. split; [intros X; apply A, ok_sym6, X|]. destruct B as (s' & e & ->). eexists; eexists; split; reflexivity.
  - match goal with |- context [err_loop ?f mm] => destruct (err_loop_spec f (ok_sym 3 inp)
      (fun i j k l mm => if ((j <? i) || (l <? k))%nat then mm else
         let '(m, n) := IJKL_TO_MN i j k l in
         if ((3 <? m) || (3 <? n))%nat then mm else
         if ((m <? 3) && (n <? 3))%nat then wr2 mm m n (inp i j k l)
          else if ((2 <? m) && (2 <? n))%nat then wr2 mm m n (2 * inp i j k l)
          else wr2 mm m n (SQRT_2 * inp i j k l)) mm) as [(A & B)|(A & B)] end.
    { intros i j k l Hi Hj Hk Hl. unfold ok_sym. destruct ((j <? i) || (l <? k))%nat.
      - destruct (Reqb_dec (inp i j k l) (inp j i k l)) as [[-> A]|[-> A]]; cbn [negb orb]; [|right; split; [tauto|eauto]].
        destruct (Reqb_dec (inp i j k l) (inp i j l k)) as [[-> B]|[-> B]]; cbn [negb orb]; [|right; split; [tauto|eauto]].
        destruct (Reqb_dec (inp i j k l) (inp j i l k)) as [[-> C]|[-> C]]; cbn [negb orb]; [|right; split; [tauto|eauto]].
        left. auto.
      - destruct (IJKL_TO_MN i j k l) as [m n]. destruct ((3 <? m) || (3 <? n))%nat.
        + destruct (Reqb_dec (inp i j k l) 0) as [[-> A]|[-> A]]; cbn [negb]; [left; auto|right; split; [tauto|eauto]].
        + left. split; [exact I|]. intros s. destruct ((m <? 3) && (n <? 3))%nat, ((2 <? m) && (2 <? n))%nat; reflexivity. }
    + left. apply ok_sym3 in A. split; [exact A|]. rewrite B. eexists; split; [reflexivity|]. split; [reflexivity|]. clear B. eval_fold.
      destruct A as [A Z]. in4. pose proof (Z i j k l Hi Hj Hk Hl) as K. clear Z. unfold in_plane in K.
      tens4t. rewrite (canon inp i j k l A) in * by assumption. clear A.
      cbn [t4_dim t4_put t4_rep t4_mat rep_dim fst].
      idx i; idx j; idx k; idx l; cbn [Nat.min Nat.max] in K |- *; try (rewrite K by lia); tred; kfield.
    + right. split; [intros X; apply A, ok_sym3, X|]. destruct B as (s' & e & ->). eexists; eexists; split; reflexivity.
Qed.
(** after an error the tensor may be partly overwritten *)
Theorem C61_t4_set_std_array_atomic_refuted :
  exists d inp d' e, t4_set_std_array d inp = (d', Err e) /\ exists i j k l, tens4 d' i j k l <> tens4 d i j k l.
Proof.
  set (inp := fun i j k l : nat => if (k =? l)%nat then 1 else if (k =? 1)%nat then 5 else 0).
  exists (t4_new Symmetric), inp. unfold t4_set_std_array, t4_dim. cbn [t4_new t4_rep rep_dim Nat.eqb orb t4_mat].
  match goal with |- context [err_loop ?f ?s] => set (F := err_loop f s); assert (E : exists e, snd F = Err e /\ fst F 0%nat 0%nat = 1) end.
  { unfold F, err_loop. rewrite <- (firstn_skipn 4 idx4), fold_left_app.
    match goal with |- context [fold_left ?f (firstn 4 idx4) ?s] =>
      assert (X : exists mm e, fold_left f (firstn 4 idx4) s = (mm, Err e) /\ mm 0%nat 0%nat = 1) end.
    { cbn [firstn idx4 flat_map map app seq fold_left IJKL_TO_MN IJKL_TO_MN_tab nth Nat.ltb Nat.leb orb andb].
      unfold inp. cbn [Nat.eqb].
      replace (Reqb 5 5) with true by (symmetry; apply Reqb_true; reflexivity).
      replace (Reqb 5 0) with false by (symmetry; apply Reqb_false; lra).
      cbn [negb orb]. eexists. eexists. split; reflexivity. }
    destruct X as (mm & e & -> & X). exists e. clear - X.
    generalize (skipn 4 idx4). intros L. induction L as [|[[[i j] k] l] L IH]; [split; [reflexivity|exact X]|exact IH]. }
  destruct F as [mm o]. cbn in E. destruct E as (e & -> & E2). exists (t4_put (t4_new Symmetric) mm), e.
  split; [reflexivity|]. exists 0%nat, 0%nat, 0%nat, 0%nat. tens4t. cbn. rewrite E2. lra.
Qed.

(** ** the 9x9 matrix of standard components: position of the pair (i, j) *)
Definition pos9 (i j : nat) : nat :=
  match i, j with
  | 0%nat, 0%nat => 0 | 1%nat, 1%nat => 1 | 2%nat, 2%nat => 2
  | 0%nat, 1%nat => 3 | 1%nat, 2%nat => 4 | 0%nat, 2%nat => 5
  | 1%nat, 0%nat => 6 | 2%nat, 1%nat => 7 | 2%nat, 0%nat => 8
  | _, _ => 0
  end%nat.
Definition of_std9 (inp : nat -> nat -> R) : a4 := fun i j k l => inp (pos9 i j) (pos9 k l).
Lemma fold_left_in {A S : Type} (f g : S -> A -> S) L s : (forall x s, In x L -> f s x = g s x) -> fold_left f L s = fold_left g L s.
Proof.
  revert s. induction L as [|a L IH]; intros s H; [reflexivity|]. cbn. rewrite H by (left; reflexivity). apply IH.
  intros. apply H. right. assumption.
Qed.
Theorem C61_t4_set_std_matrix d inp : t4_set_std_matrix d inp = t4_set_std_array d (of_std9 inp).
Proof.
  unfold t4_set_std_matrix, t4_set_std_array. set (dim := t4_dim d). clearbody dim.
  destruct ((dim =? 4) || (dim =? 6))%nat.
  - set (max := if (dim =? 4)%nat then 3%nat else 6%nat). clearbody max.
    match goal with |- context [err_loop ?f ?s] => set (F := err_loop f s) end.
    match goal with |- context [err_loop ?f ?s] => set (G := err_loop f s) end.
    assert (E : F = G); [|rewrite E; reflexivity].
    unfold F, G, err_loop. apply fold_left_in. intros [[[i j] k] l] [s o] Q. apply in_idx4 in Q as (Hi & Hj & Hk & Hl).
    destruct o as [u|e|]; [|reflexivity|reflexivity].
    unfold of_std9.
    replace (IJKL_TO_MN i j k l) with (pos9 i j, pos9 k l) by (clear - Hi Hj Hk Hl; idx i; idx j; idx k; idx l; reflexivity).
    replace (IJKL_TO_MN i j l k) with (pos9 i j, pos9 l k) by (clear - Hi Hj Hk Hl; idx i; idx j; idx k; idx l; reflexivity).
    replace (IJKL_TO_MN j i k l) with (pos9 j i, pos9 k l) by (clear - Hi Hj Hk Hl; idx i; idx j; idx k; idx l; reflexivity).
    replace (IJKL_TO_MN j i l k) with (pos9 j i, pos9 l k) by (clear - Hi Hj Hk Hl; idx i; idx j; idx k; idx l; reflexivity).
    cbn [fst snd]. rewrite (Bool.orb_comm (negb (Reqb (inp (pos9 i j) (pos9 k l)) (inp (pos9 i j) (pos9 l k))))). reflexivity.
  - match goal with |- context [err_loop ?f ?s] => set (F := err_loop f s) end.
    match goal with |- context [err_loop ?f ?s] => set (G := err_loop f s) end.
    assert (E : F = G); [|rewrite E; reflexivity].
    unfold F, G, err_loop. apply fold_left_in. intros [[[i j] k] l] [s o] Q. apply in_idx4 in Q as (Hi & Hj & Hk & Hl).
    destruct o as [u|e|]; [|reflexivity|reflexivity].
    unfold of_std9.
    replace (IJKL_TO_MN i j k l) with (pos9 i j, pos9 k l) by (clear - Hi Hj Hk Hl; idx i; idx j; idx k; idx l; reflexivity).
    replace (IJKL_TO_MN i j l k) with (pos9 i j, pos9 l k) by (clear - Hi Hj Hk Hl; idx i; idx j; idx k; idx l; reflexivity).
    replace (IJKL_TO_MN j i k l) with (pos9 j i, pos9 k l) by (clear - Hi Hj Hk Hl; idx i; idx j; idx k; idx l; reflexivity).
    replace (IJKL_TO_MN j i l k) with (pos9 j i, pos9 l k) by (clear - Hi Hj Hk Hl; idx i; idx j; idx k; idx l; reflexivity).
    cbn [fst snd]. reflexivity.
Qed.
(** ** reading all components *)
Lemma tens4_minor d : t4_rep d <> General -> minor_sym (tens4 d).
Proof.
  intros H i j k l Hi Hj Hk Hl. rewrite !tens4_c2 by assumption. destruct d as [r v ul]. cbn [t4_rep] in H.
  unfold t4_dim. cbn [t4_rep t4_mat].
  destruct r; [congruence| |]; idx i; idx j; idx k; idx l; split; tred; kfield.
Qed.
Lemma tens4_plane d i j k l : t4_rep d = Symmetric2D -> (i < 3)%nat -> (j < 3)%nat -> (k < 3)%nat -> (l < 3)%nat ->
  ~ (in_plane i j /\ in_plane k l) -> tens4 d i j k l = 0.
Proof.
  intros H Hi Hj Hk Hl N. rewrite !tens4_c2 by assumption. destruct d as [r v ul]. cbn [t4_rep] in H. subst r.
  unfold t4_dim. cbn [t4_rep t4_mat]. unfold in_plane in N.
  idx i; idx j; idx k; idx l; try (exfalso; apply N; lia); tred; kfield.
Qed.
Lemma loop_ext {S : Type} n (f g : nat -> S -> S) s : (forall m s, (m < n)%nat -> f m s = g m s) -> loop n f s = loop n g s.
Proof. intros H. unfold loop. apply fold_left_in. intros m s' Hm. apply in_seq in Hm. apply H. lia. Qed.
Definition put4 (dd : a4) (i j k l : nat) (v : R) : a4 :=
  wr4 (wr4 (wr4 (wr4 dd i j k l v) j i k l v) i j l k v) j i l k v.
Definition std_body (g : a4) (m n : nat) (dd : a4) : a4 :=
  let '(i, j, k, l) := MN_TO_IJKL m n in
  let dd := wr4 dd i j k l (g i j k l) in
  if negb (i =? j)%nat || negb (k =? l)%nat then
    let dd := wr4 dd j i k l (dd i j k l) in let dd := wr4 dd i j l k (dd i j k l) in wr4 dd j i l k (dd i j k l)
  else dd.
Definition std_body' (g : a4) (m n : nat) (dd : a4) : a4 :=
  let '(i, j, k, l) := MN_TO_IJKL m n in
  if negb (i =? j)%nat || negb (k =? l)%nat then put4 dd i j k l (g i j k l) else wr4 dd i j k l (g i j k l).
Lemma std_body_eq g m n dd : (m < 6)%nat -> (n < 6)%nat -> std_body g m n dd = std_body' g m n dd.
Proof.
  intros Hm Hn.
  do 6 (destruct m as [|m]; [do 6 (destruct n as [|n]; [reflexivity|]); exfalso; lia|]). exfalso; lia.
Qed.
Theorem C61_t4_as_std_array d : eq4 (t4_as_std_array d) (tens4 d).
Proof.
  assert (G : forall i j k l, (i < 3)%nat -> (j < 3)%nat -> (k < 3)%nat -> (l < 3)%nat -> gs4 d i j k l = tens4 d i j k l)
    by (intros; apply gs4_tens; assumption).
  unfold t4_as_std_array, t4_to_std_array, t4_dim. destruct (t4_rep d) eqn:E; cbn [rep_dim Nat.ltb Nat.leb].
  - in4. rewrite <- G by assumption. clear G. set (g := gs4 d). clearbody g.
    idx i; idx j; idx k; idx l; reflexivity.
  - pose proof (tens4_minor d ltac:(congruence)) as M.
    change (eq4 (loop 6 (fun m dd => loop 6 (fun n dd => std_body (gs4 d) m n dd) dd) (fun _ _ _ _ => 0)) (tens4 d)).
    in4. rewrite (canon _ _ _ _ _ M) by assumption. rewrite <- G by lia. clear G M E. set (g := gs4 d). clearbody g.
    rewrite (loop_ext 6 _ (fun m dd => loop 6 (fun n dd => std_body' g m n dd) dd)).
    2: { intros m s Hm. apply loop_ext. intros n s' Hn. apply std_body_eq; assumption. }
    idx i; idx j; idx k; idx l; reflexivity.
  - pose proof (tens4_minor d ltac:(congruence)) as M.
    pose proof (fun i j k l => tens4_plane d i j k l E) as Z.
    change (eq4 (loop 4 (fun m dd => loop 4 (fun n dd => std_body (gs4 d) m n dd) dd) (fun _ _ _ _ => 0)) (tens4 d)).
    in4. specialize (Z i j k l Hi Hj Hk Hl). rewrite (canon _ _ _ _ _ M) in * by assumption.
    rewrite <- G in * by lia. clear G M E. set (g := gs4 d) in *. clearbody g.
    rewrite (loop_ext 4 _ (fun m dd => loop 4 (fun n dd => std_body' g m n dd) dd)).
    2: { intros m s Hm. apply loop_ext. intros n s' Hn. apply std_body_eq; lia. }
    unfold in_plane in Z.
    idx i; idx j; idx k; idx l; cbn [Nat.min Nat.max] in Z |- *; try reflexivity; rewrite Z by lia; reflexivity.
Qed.
Theorem C61_t4_roundtrip r inp : admissible4 r inp ->
  exists d, t4_from_std_array inp r = Ok d /\ eq4 (t4_as_std_array d) inp.
Proof.
  intros H. unfold t4_from_std_array.
  destruct (C61_t4_set_std_array (t4_new r) inp) as [(_ & d & E & _ & F)|(K & _)]; [|contradiction].
  rewrite E. exists d. split; [reflexivity|]. in4. rewrite C61_t4_as_std_array, F by assumption. reflexivity.
Qed.
Theorem C61_t4_from_std_array_bad r inp : ~ admissible4 r inp -> exists e, t4_from_std_array inp r = Err e.
Proof.
  intros H. unfold t4_from_std_array.
  destruct (C61_t4_set_std_array (t4_new r) inp) as [(K & _)|(_ & d & e & E & _)]; [contradiction|].
  rewrite E. eauto.
Qed.
Theorem C61_t4_as_std_matrix d : exists mm, t4_as_std_matrix d = Ok ((9, 9)%nat, mm) /\
  forall i j k l, (i < 3)%nat -> (j < 3)%nat -> (k < 3)%nat -> (l < 3)%nat -> mm (pos9 i j) (pos9 k l) = tens4 d i j k l.
Proof.
  unfold t4_as_std_matrix, t4_to_std_matrix. cbn [Nat.eqb andb assert_ bind]. eexists; split; [reflexivity|].
  in4. rewrite <- gs4_tens by assumption. set (g := gs4 d). clearbody g. idx i; idx j; idx k; idx l; reflexivity.
Qed.
Theorem C61_t4_matrix_roundtrip r inp : admissible4 r (of_std9 inp) ->
  exists d mm, t4_from_std_matrix inp r = Ok d /\ t4_as_std_matrix d = Ok ((9, 9)%nat, mm) /\
    forall p q, (p < 9)%nat -> (q < 9)%nat -> mm p q = inp p q.
Proof.
  intros H. unfold t4_from_std_matrix. rewrite C61_t4_set_std_matrix.
  destruct (C61_t4_set_std_array (t4_new r) (of_std9 inp)) as [(_ & d & E & _ & F)|(K & _)]; [|contradiction].
  rewrite E. destruct (C61_t4_as_std_matrix d) as (mm & A & B). exists d, mm. split; [reflexivity|]. split; [exact A|].
  intros p q Hp Hq.
  assert (K : forall p, (p < 9)%nat -> exists i j, (i < 3)%nat /\ (j < 3)%nat /\ p = pos9 i j).
  { clear. intros p Hp. idx9 p; [exists 0%nat, 0%nat|exists 1%nat, 1%nat|exists 2%nat, 2%nat|exists 0%nat, 1%nat|exists 1%nat, 2%nat|
      exists 0%nat, 2%nat|exists 1%nat, 0%nat|exists 2%nat, 1%nat|exists 2%nat, 0%nat]; repeat split; auto with arith; lia. }
  destruct (K p Hp) as (i & j & Hi & Hj & ->). destruct (K q Hq) as (k & l & Hk & Hl & ->).
  rewrite B, F by assumption. reflexivity.
Qed.
(** a caller-supplied output array is not cleared by the 2D variant *)
Theorem C61_t4_to_std_array_stale_refuted :
  exists d dd, t4_rep d = Symmetric2D /\ tens4 d 0%nat 2%nat 0%nat 2%nat = 0 /\ t4_to_std_array d dd 0%nat 2%nat 0%nat 2%nat = 7.
Proof.
  exists (t4_new Symmetric2D), (fun _ _ _ _ => 7). split; [reflexivity|]. split.
  - apply tens4_plane; try reflexivity; try lia. unfold in_plane. lia.
  - unfold t4_to_std_array. cbn [t4_dim t4_new t4_rep rep_dim Nat.ltb Nat.leb].
    change (loop 4 (fun m dd => loop 4 (fun n dd => std_body (gs4 (t4_new Symmetric2D)) m n dd) dd) (fun _ _ _ _ => 7) 0%nat 2%nat 0%nat 2%nat = 7).
    set (g := gs4 (t4_new Symmetric2D)). clearbody g.
    rewrite (loop_ext 4 _ (fun m dd => loop 4 (fun n dd => std_body' g m n dd) dd)).
    2: { intros m s Hm. apply loop_ext. intros n s' Hn. apply std_body_eq; lia. }
    reflexivity.
Qed.

(** get and set of the Kelvin vector and matrix work on the 9 (by 9) array and panic outside it *)
Theorem C61_get_set (t : t2) (d : t4) m n x :
  ((m < 9)%nat -> exists t', t2_set t m x = Ok t' /\ t2_rep t' = t2_rep t /\ forall m', t2_get t' m' = if (m' =? m)%nat then Ok x else t2_get t m') /\
  ((9 <= m)%nat -> t2_set t m x = Panic /\ t2_get t m = Panic) /\
  ((m < 9)%nat /\ (n < 9)%nat -> exists d', t4_set d m n x = Ok d' /\ t4_rep d' = t4_rep d /\
     forall m' n', t4_get d' m' n' = if ((m' =? m) && (n' =? n))%nat then Ok x else t4_get d m' n') /\
  ((9 <= m)%nat \/ (9 <= n)%nat -> t4_set d m n x = Panic /\ t4_get d m n = Panic).
Proof.
  unfold t2_set, t2_get, t4_set, t4_get. split; [|split; [|split]].
  - intros Hm. rewrite (proj2 (Nat.ltb_lt m 9) Hm). eexists. split; [reflexivity|]. split; auto. intros m'. cbn [t2_vec]. unfold wr.
    destruct (Nat.eqb_spec m' m) as [->|]; rewrite ?(proj2 (Nat.ltb_lt m 9) Hm); reflexivity.
  - intros H. rewrite (proj2 (Nat.ltb_ge m 9) H). auto.
  - intros [Hm Hn]. rewrite (proj2 (Nat.ltb_lt m 9) Hm), (proj2 (Nat.ltb_lt n 9) Hn). cbn [andb]. eexists. split; [reflexivity|]. split; auto.
    intros m' n'. cbn [t4_mat t4_put]. unfold wr2.
    destruct (Nat.eqb_spec m' m) as [->|], (Nat.eqb_spec n' n) as [->|]; cbn [andb]; rewrite ?(proj2 (Nat.ltb_lt m 9) Hm), ?(proj2 (Nat.ltb_lt n 9) Hn); reflexivity.
  - intros H. destruct (Nat.ltb_spec m 9) as [H1|H1], (Nat.ltb_spec n 9) as [H2|H2]; cbn [andb]; auto. exfalso. destruct H as [H|H]; [exact (Nat.lt_irrefl _ (Nat.lt_le_trans _ _ _ H1 H))|exact (Nat.lt_irrefl _ (Nat.lt_le_trans _ _ _ H2 H))].
Qed.
(** Finding: the documentation of get and set tells to check the range with dim() and
    announces a panic when an index is out of range; without the heap feature a
    symmetric tensor accepts a write to component 8 (dim() is 6 or 4) and gives it back,
    although it is no component of the tensor. *)
Theorem C61_set_range_refuted r x : r <> General ->
  (exists t', t2_set (t2_new r) 8 x = Ok t' /\ t2_get t' 8 = Ok x /\ (t2_dim t' <= 8)%nat) /\
  (exists d', t4_set (t4_new r) 8 8 x = Ok d' /\ t4_get d' 8 8 = Ok x /\ (t4_dim d' <= 8)%nat).
Proof. intros H. split; eexists; (split; [reflexivity|]); (split; [reflexivity|]); destruct r; try congruence; cbn; repeat constructor. Qed.

(** The constructors: two dimensions (or the flag) give 4 components per direction, anything else 6, and all components are zero. *)
Theorem C61_t4_new_sym : t4_dim (t4_new_sym true) = 4%nat /\ t4_dim (t4_new_sym false) = 6%nat /\
  t4_dim (t4_new_sym_ndim 2) = 4%nat /\ (forall ndim, ndim <> 2%nat -> t4_dim (t4_new_sym_ndim ndim) = 6%nat) /\
  (forall b ndim m n, (m < 9)%nat -> (n < 9)%nat -> t4_get (t4_new_sym b) m n = Ok 0 /\ t4_get (t4_new_sym_ndim ndim) m n = Ok 0).
Proof.
  splits; try reflexivity.
  - intros ndim H. unfold t4_new_sym_ndim. destruct (Nat.eqb_spec ndim 2); [contradiction|]. reflexivity.
  - intros b ndim m n Hm Hn. unfold t4_get. rewrite (proj2 (Nat.ltb_lt m 9) Hm), (proj2 (Nat.ltb_lt n 9) Hn).
    unfold t4_new_sym, t4_new_sym_ndim. destruct b, (ndim =? 2)%nat; auto.
Qed.
Theorem C61_t2_new_sym : t2_dim (t2_new_sym true) = 4%nat /\ t2_dim (t2_new_sym false) = 6%nat /\
  t2_dim (t2_new_sym_ndim 2) = 4%nat /\ (forall ndim, ndim <> 2%nat -> t2_dim (t2_new_sym_ndim ndim) = 6%nat) /\
  (forall b ndim m, (m < 9)%nat -> t2_get (t2_new_sym b) m = Ok 0 /\ t2_get (t2_new_sym_ndim ndim) m = Ok 0).
Proof.
  splits; try reflexivity.
  - intros ndim H. unfold t2_new_sym_ndim. destruct (Nat.eqb_spec ndim 2); [contradiction|]. reflexivity.
  - intros b ndim m Hm. unfold t2_get. rewrite (proj2 (Nat.ltb_lt m 9) Hm).
    unfold t2_new_sym, t2_new_sym_ndim. destruct b, (ndim =? 2)%nat; auto.
Qed.
Print Assumptions C61_t2_new_sym.
Print Assumptions C61_t4_new_sym.
Print Assumptions C61_t4_set_std_array.
Print Assumptions C61_t4_roundtrip.
Print Assumptions C61_t4_matrix_roundtrip.
