(** C52: dense output of the explicit Runge-Kutta methods DoPri5 and DoPri8. *)
From Coq Require Import Qreals Lra.
From Coquelicot Require Import Coquelicot.
From Verif Require Import Erk_Model Ode_Base_Thm Ode_Drv_Thm Erk_Tab_Thm Erk_Thm.
Local Open Scope nat_scope.

Lemma tab_inv {A} l (g : nat -> res A) r : tab l g = Ok r -> length r = length l /\ forall i d d', i < length l -> g (nth i l d') = Ok (nth i r d).
Proof.
  revert r. induction l as [|a l IH]; intros r E; cbn [tab] in E.
  - injection E as <-. split; [reflexivity|]. intros i d d' H. inversion H.
  - apply bind_ok in E as (u & E1 & E). apply bind_ok in E as (v & E2 & E). injection E as <-. destruct (IH _ E2) as (L & H). split; [cbn; lia|].
    intros [|i] d d' Hi; cbn [nth]; [exact E1|]. apply H. cbn in Hi. lia.
Qed.
Lemma tabulate_inv {A} n (g : nat -> res A) r d : tabulate n g = Ok r -> length r = n /\ forall m, m < n -> g m = Ok (nth m r d).
Proof.
  intros E. apply tab_inv in E as (L & H). rewrite seq_length in *. split; [exact L|]. intros m Hm. specialize (H m d 0 Hm). now rewrite seq_nth in H by exact Hm.
Qed.

Lemma wsum_from row terms m a : (forall p, In p terms -> fst p < length row /\ m < length (snd p)) ->
  for_each terms (fun (p : nat * vec) acc => r <- vget row (fst p) ;; c <- vget (snd p) m ;; Ok (acc + r * c)%R) a =
  Ok (fold_left (fun acc p => acc + nth (fst p) row 0 * nth m (snd p) 0)%R terms a).
Proof.
  revert a. induction terms as [|[i v] l IH]; intros a H; [reflexivity|].
  destruct (H _ (or_introl eq_refl)) as (H1 & H2). cbn [for_each fold_left fst snd] in *.
  rewrite (vget_ok row i 0%R), (vget_ok v m 0%R) by assumption. cbn [bind]. apply IH. intros q Hq. apply H. now right.
Qed.
Lemma wsum_eq row terms m : (forall p, In p terms -> fst p < length row /\ m < length (snd p)) ->
  wsum row terms m = Ok (fold_left (fun acc p => acc + nth (fst p) row 0 * nth m (snd p) 0)%R terms 0%R).
Proof. apply wsum_from. Qed.

Section Dense.
Variable ndim : nat.
Variable f : R -> vec -> res vec.
Variable powf : R -> R -> R.
Hypothesis f_dim : keeps_dim ndim f.

(** the accepted step leaves the coefficients of `update` in the solver *)
Lemma accept_dense s w x y h s' w' x' y' o : erk_accept ndim f powf s w x y h = Ok (s', w', x', y') -> e_dense s = Some o ->
  exists o' n, dense_update ndim f x y h (e_w s) (e_k s) o = Ok (o', n) /\ e_dense s' = Some o'.
Proof.
  intros E Ho. unfold erk_accept in E. rewrite Ho in E. apply bind_ok in E as ([s1 w1] & E1 & E). apply bind_ok in E1 as ([o' n] & E0 & E1). injection E1 as <- <-.
  exists o', n. split; [exact E0|]. cbv zeta in E. apply bind_ok in E as (y2 & _ & E). apply bind_ok in E as (s2 & E2 & E).
  assert (D2 : e_dense s2 = Some o').
  { destruct (i_fsal _); [|injection E2 as <-; reflexivity]. repeat (apply bind_ok in E2 as (? & ? & E2)). injection E2 as <-. reflexivity. }
  destruct (negb (i_embedded (e_info s2))); [injection E as <- <- <- <-; exact D2|].
  apply bind_ok in E as ([s3 w3] & E3 & E). injection E as <- <- <- <-. rewrite <- D2.
  unfold erk_stiffness in E3. destruct (ps_enabled (p_stiff (e_params s2))); [|injection E3 as <- <-; reflexivity].
  destruct (p_method (e_params s2)); try (injection E3 as <- <-; reflexivity);
    repeat (apply bind_ok in E3 as (? & ? & E3)); injection E3 as <- <-; reflexivity.
Qed.

(** the quartic of Shampine, in Hairer's nested form, in theta = (t - x)/h *)
Definition quartic (d0 d1 d2 d3 d4 th : R) : R := (d0 + th * (d1 + (1 - th) * (d2 + th * (d3 + (1 - th) * d4))))%R.
Definition septic (d0 d1 d2 d3 d4 d5 d6 d7 th : R) : R := quartic d0 d1 d2 d3 (d4 + th * (d5 + (1 - th) * (d6 + th * d7))) th.

(** the curve of DoPri5 *)
Definition dense5 (x : R) (y w : vec) (h : R) (k : list vec) (t : R) : vec :=
  map (fun m => let d := fun i => nth m (nth i k []) 0%R in
    let dy := (nth m w 0 - nth m y 0)%R in let sp := (h * d 0%nat - dy)%R in
    quartic (nth m y 0%R) dy sp (dy - h * d 6%nat - sp)
      (h * rsum 7 (fun i => nth i (Rrow (nth 0 DORMAND_PRINCE_5_D [])) 0 * d i))%R ((t - x) / h)) (seq 0 ndim).

Lemma vget_eq (v : vec) m : m < length v -> vget v m = Ok (nth m v 0%R).
Proof. apply vget_ok. Qed.

Lemma update5 o x y h w k o' n : de_method o = DoPri5 -> length y = ndim -> length w = ndim -> vecs_ok ndim 7 k -> h <> 0%R ->
  dense_update ndim f x y h w k o = Ok (o', n) -> n = 0 /\ forall t, dense_calculate ndim t (x + h) h o' = Ok (dense5 x y w h k t).
Proof.
  intros Hm Ly Lw (Lk & Lki) Hh E. unfold dense_update in E. rewrite Hm in E.
  do 6 (rewrite (vget_ok k _ []) in E by lia; cbn [bind] in E).
  pose proof (Lki 0 ltac:(lia)) as K0. pose proof (Lki 2 ltac:(lia)) as K2. pose proof (Lki 3 ltac:(lia)) as K3.
  pose proof (Lki 4 ltac:(lia)) as K4. pose proof (Lki 5 ltac:(lia)) as K5. pose proof (Lki 6 ltac:(lia)) as K6.
  rewrite (vget_ok (Rmat DORMAND_PRINCE_5_D) 0 []) in E by (rewrite Rmat_length; cbn; lia). cbn [bind] in E. rewrite Rmat_nth in E.
  set (row := Rrow (nth 0 DORMAND_PRINCE_5_D [])) in *.
  assert (Lr : length row = 7) by (unfold row; rewrite Rrow_length; reflexivity).
  assert (R1 : nth 1 row 0%R = 0%R) by (unfold row; rewrite Rrow_nth; exact Q2R0).
  assert (HR : Rrow (nth 0 DORMAND_PRINCE_5_D []) = row) by reflexivity. clearbody row.
  apply bind_ok in E as (d0 & E0 & E). apply bind_ok in E as (d1 & E1 & E). apply bind_ok in E as (d2 & E2 & E).
  apply bind_ok in E as (d3 & E3 & E). apply bind_ok in E as (d4 & E4 & E). injection E as <- <-. split; [reflexivity|]. intros t.
  apply (tabulate_inv _ _ _ 0%R) in E0 as (L0 & E0). apply (tabulate_inv _ _ _ 0%R) in E1 as (L1 & E1). apply (tabulate_inv _ _ _ 0%R) in E2 as (L2 & E2).
  apply (tabulate_inv _ _ _ 0%R) in E3 as (L3 & E3). apply (tabulate_inv _ _ _ 0%R) in E4 as (L4 & E4).
  unfold dense_calculate, dense5. cbn [de_method de_d]. cbv zeta. apply tabulate_ok. intros m Hm'.
  specialize (E0 m Hm'). specialize (E1 m Hm'). specialize (E2 m Hm'). specialize (E3 m Hm'). specialize (E4 m Hm').
  rewrite wsum_eq in E4 by (intros p Hp; cbn in Hp; repeat (destruct Hp as [<-|Hp]; [cbn; lia|]); destruct Hp).
  rewrite (vget_eq y m) in E0, E1, E2, E3 by lia. rewrite (vget_eq w m) in E1, E2, E3 by lia. rewrite (vget_eq (nth 0 k []) m) in E2, E3 by lia.
  rewrite (vget_eq (nth 6 k []) m) in E3 by lia. cbn [bind] in E0, E1, E2, E3, E4.
  injection E0 as E0. injection E1 as E1. injection E2 as E2. injection E3 as E3. injection E4 as E4.
  unfold mget. cbn [vget nth_error bind]. rewrite (vget_eq d0 m), (vget_eq d1 m), (vget_eq d2 m), (vget_eq d3 m), (vget_eq d4 m) by lia. cbn [bind].
  rewrite <- E0, <- E1, <- E2, <- E3, <- E4. f_equal. unfold quartic. replace (x + h - h)%R with x by ring. rewrite HR. cbn [fold_left fst snd rsum]. rewrite R1. ring.
Qed.

(** the curve of DoPri8; kd are the three extra stages *)
Definition dense8 (x : R) (y w : vec) (h : R) (k kd : list vec) (t : R) : vec :=
  map (fun m => let d := fun i => nth m (nth i k []) 0%R in let e := fun i => nth m (nth i kd []) 0%R in
    let dy := (nth m w 0 - nth m y 0)%R in let sp := (h * d 0%nat - dy)%R in
    let D := fun r => let row := Rrow (nth r DORMAND_PRINCE_8_D []) in
       (h * (rsum 12 (fun i => nth i row 0 * d i) + nth 12 row 0 * d 11%nat + nth 13 row 0 * e 0%nat + nth 14 row 0 * e 1%nat + nth 15 row 0 * e 2%nat))%R in
    septic (nth m y 0%R) dy sp (dy - h * d 11%nat - sp) (D 0%nat) (D 1%nat) (D 2%nat) (D 3%nat) ((t - x) / h)) (seq 0 ndim).

(** the body of `update` for DoPri8, with its three matrices as arguments *)
Definition update8_with (AD Dm : list (list R)) (CD : list R) (x : R) (y : vec) (h : R) (w : vec) (k : list vec) : res (dense * nat) :=
    k0 <- vget k 0 ;; k5 <- vget k 5 ;; k6 <- vget k 6 ;; k7 <- vget k 7 ;; k8 <- vget k 8 ;; k9 <- vget k 9 ;;
    k10 <- vget k 10 ;; k11 <- vget k 11 ;;
    a0 <- vget AD 0 ;; a1 <- vget AD 1 ;; a2 <- vget AD 2 ;;
    c0 <- vget CD 0 ;; c1 <- vget CD 1 ;; c2 <- vget CD 2 ;;
    yd <- tabulate ndim (fun m => ym <- vget y m ;;
            s <- wsum a0 [(0, k0); (6, k6); (7, k7); (8, k8); (9, k9); (10, k10); (11, k11); (12, k11)] m ;; Ok (ym + h * s)%R) ;;
    kd0 <- f (x + c0 * h)%R yd ;;
    yd <- tabulate ndim (fun m => ym <- vget y m ;;
            s <- wsum a1 [(0, k0); (5, k5); (6, k6); (7, k7); (10, k10); (11, k11); (12, k11); (13, kd0)] m ;; Ok (ym + h * s)%R) ;;
    kd1 <- f (x + c1 * h)%R yd ;;
    yd <- tabulate ndim (fun m => ym <- vget y m ;;
            s <- wsum a2 [(0, k0); (5, k5); (6, k6); (7, k7); (8, k8); (12, k11); (13, kd0); (14, kd1)] m ;; Ok (ym + h * s)%R) ;;
    kd2 <- f (x + c2 * h)%R yd ;;
    d0 <- tabulate ndim (fun m => vget y m) ;;
    d1 <- tabulate ndim (fun m => wm <- vget w m ;; ym <- vget y m ;; Ok (wm - ym)%R) ;;
    d2 <- tabulate ndim (fun m => wm <- vget w m ;; ym <- vget y m ;; km <- vget k0 m ;; Ok (h * km - (wm - ym))%R) ;;
    d3 <- tabulate ndim (fun m => wm <- vget w m ;; ym <- vget y m ;; km <- vget k0 m ;; kl <- vget k11 m ;;
                                  Ok ((wm - ym) - h * kl - (h * km - (wm - ym)))%R) ;;
    let row r := tabulate ndim (fun m => dr <- vget Dm r ;;
        s <- wsum dr [(0, k0); (5, k5); (6, k6); (7, k7); (8, k8); (9, k9); (10, k10); (11, k11); (12, k11); (13, kd0); (14, kd1); (15, kd2)] m ;;
        Ok (h * s)%R) in
    d4 <- row 0 ;; d5 <- row 1 ;; d6 <- row 2 ;; d7 <- row 3 ;;
    Ok (mkDense DoPri8 [d0; d1; d2; d3; d4; d5; d6; d7] [kd0; kd1; kd2], 3).

Lemma update8_is o x y h w k : de_method o = DoPri8 ->
  dense_update ndim f x y h w k o = update8_with (Rmat DORMAND_PRINCE_8_AD) (Rmat DORMAND_PRINCE_8_D) (Rrow DORMAND_PRINCE_8_CD) x y h w k.
Proof. intros E. unfold dense_update. rewrite E. reflexivity. Qed.

(** where the extra stages evaluate the function *)
Definition sparse_row (row : list R) (l : list nat) : Prop := forall i, ~ In i l -> nth i row 0%R = 0%R.
Definition extra_stages (AD : list (list R)) (CD : list R) (x : R) (y : vec) (h : R) (k kd : list vec) : Prop :=
  forall r, r < 3 -> f (x + nth r CD 0 * h)%R
    (map (fun m => (nth m y 0 + h * rsum (13 + r) (fun j => nth j (nth r AD []) 0 * nth m (nth j (k ++ [nth 11 k []] ++ kd) []) 0))%R) (seq 0 ndim)) = Ok (nth r kd []).

Lemma update8_gen AD Dm CD x y h w k o' n :
  length AD = 3 -> (forall r, r < 3 -> length (nth r AD []) = 15) -> length CD = 3 -> length Dm = 4 -> (forall r, r < 4 -> length (nth r Dm []) = 16) ->
  (forall i, In i [1; 2; 3; 4; 5] -> nth i (nth 0 AD []) 0%R = 0%R) -> (forall i, In i [1; 2; 3; 4; 8; 9] -> nth i (nth 1 AD []) 0%R = 0%R) ->
  (forall i, In i [1; 2; 3; 4; 9; 10; 11] -> nth i (nth 2 AD []) 0%R = 0%R) -> (forall r i, r < 4 -> In i [1; 2; 3; 4] -> nth i (nth r Dm []) 0%R = 0%R) ->
  length y = ndim -> length w = ndim -> vecs_ok ndim 12 k ->
  update8_with AD Dm CD x y h w k = Ok (o', n) -> n = 3 /\ exists kd, vecs_ok ndim 3 kd /\ extra_stages AD CD x y h k kd /\
   forall t, dense_calculate ndim t (x + h) h o' =
     Ok (map (fun m => let d := fun i => nth m (nth i k []) 0%R in let e := fun i => nth m (nth i kd []) 0%R in
    let dy := (nth m w 0 - nth m y 0)%R in let sp := (h * d 0%nat - dy)%R in
    let D := fun r => let row := nth r Dm [] in
       (h * (rsum 12 (fun i => nth i row 0 * d i) + nth 12 row 0 * d 11%nat + nth 13 row 0 * e 0%nat + nth 14 row 0 * e 1%nat + nth 15 row 0 * e 2%nat))%R in
    septic (nth m y 0%R) dy sp (dy - h * d 11%nat - sp) (D 0) (D 1) (D 2) (D 3) ((t - x) / h)) (seq 0 ndim)).
Proof using f_dim.
  clear powf. intros A1 A2 A3 A4 A5 Z0 Z1 Z2 ZD Ly Lw (Lk & Lki) E. unfold update8_with in E.
  do 8 (rewrite (vget_ok k _ []) in E by lia; cbn [bind] in E).
  assert (KK : forall i, i < 12 -> length (nth i k []) = ndim) by (intros; apply Lki; lia).
  pose proof (KK 0 ltac:(lia)) as K0. pose proof (KK 5 ltac:(lia)) as K5. pose proof (KK 6 ltac:(lia)) as K6. pose proof (KK 7 ltac:(lia)) as K7.
  pose proof (KK 8 ltac:(lia)) as K8. pose proof (KK 9 ltac:(lia)) as K9. pose proof (KK 10 ltac:(lia)) as K10. pose proof (KK 11 ltac:(lia)) as K11.
  do 3 (rewrite (vget_ok AD _ []) in E by lia; cbn [bind] in E).
  do 3 (rewrite (vget_ok CD _ 0%R) in E by lia; cbn [bind] in E).
  pose proof (A2 0 ltac:(lia)) as LA0. pose proof (A2 1 ltac:(lia)) as LA1. pose proof (A2 2 ltac:(lia)) as LA2.
  apply bind_ok in E as (y0 & Y0 & E). apply (tabulate_inv _ _ _ 0%R) in Y0 as (LY0 & Y0). apply bind_ok in E as (kd0 & F0 & E). pose proof (f_dim _ _ _ LY0 F0) as D0.
  apply bind_ok in E as (y1 & Y1 & E). apply (tabulate_inv _ _ _ 0%R) in Y1 as (LY1 & Y1). apply bind_ok in E as (kd1 & F1 & E). pose proof (f_dim _ _ _ LY1 F1) as D1.
  apply bind_ok in E as (y2 & Y2 & E). apply (tabulate_inv _ _ _ 0%R) in Y2 as (LY2 & Y2). apply bind_ok in E as (kd2 & F2 & E). pose proof (f_dim _ _ _ LY2 F2) as D2.
  apply bind_ok in E as (d0 & E0 & E). apply bind_ok in E as (d1 & E1 & E). apply bind_ok in E as (d2 & E2 & E). apply bind_ok in E as (d3 & E3 & E). cbv zeta in E.
  apply bind_ok in E as (d4 & E4 & E). apply bind_ok in E as (d5 & E5 & E). apply bind_ok in E as (d6 & E6 & E). apply bind_ok in E as (d7 & E7 & E). injection E as <- <-.
  split; [reflexivity|]. exists [kd0; kd1; kd2].
  split; [split; [reflexivity|]; intros [|[|[|i]]] Hi; cbn [nth]; try assumption; lia|].
  assert (KN : forall j, j < 12 -> nth j (k ++ [nth 11 k []] ++ [kd0; kd1; kd2]) [] = nth j k []) by (intros j Hj; apply app_nth1; lia).
  assert (KN2 : nth 12 (k ++ [nth 11 k []] ++ [kd0; kd1; kd2]) [] = nth 11 k [] /\ nth 13 (k ++ [nth 11 k []] ++ [kd0; kd1; kd2]) [] = kd0 /\
                nth 14 (k ++ [nth 11 k []] ++ [kd0; kd1; kd2]) [] = kd1) by (splits; rewrite (app_nth2 k) by lia; rewrite Lk; reflexivity).
  destruct KN2 as (KN12 & KN13 & KN14).
  split.
  { unfold extra_stages, vec in *. set (K := k ++ [nth 11 k []] ++ [kd0; kd1; kd2]) in *. clearbody K.
    intros [|[|[|r]]] Hr; [| | |lia]; cbn [nth]; [rewrite <- F0|rewrite <- F1|rewrite <- F2]; f_equal; symmetry;
      (apply (vec_ext _ _ ndim); [assumption|now rewrite map_length, seq_length|]); intros m Hm; rewrite nth_tabmap by exact Hm;
      [specialize (Y0 m Hm); rename Y0 into Y|specialize (Y1 m Hm); rename Y1 into Y|specialize (Y2 m Hm); rename Y2 into Y];
      rewrite wsum_eq in Y by (intros p Hp; cbn in Hp; repeat (destruct Hp as [<-|Hp]; [cbn; lia|]); destruct Hp);
      rewrite (vget_eq y m) in Y by lia; cbn [bind] in Y; injection Y as <-;
      cbn [fold_left fst snd rsum Nat.add];
      rewrite !(KN 0), !(KN 1), !(KN 2), !(KN 3), !(KN 4), !(KN 5), !(KN 6), !(KN 7), !(KN 8), !(KN 9), !(KN 10), !(KN 11), ?KN12, ?KN13, ?KN14 by lia.
    - rewrite !(Z0 1), !(Z0 2), !(Z0 3), !(Z0 4), !(Z0 5) by (cbn; tauto). ring.
    - rewrite !(Z1 1), !(Z1 2), !(Z1 3), !(Z1 4), !(Z1 8), !(Z1 9) by (cbn; tauto). ring.
    - rewrite !(Z2 1), !(Z2 2), !(Z2 3), !(Z2 4), !(Z2 9), !(Z2 10), !(Z2 11) by (cbn; tauto). ring. }
  intros t.
  apply (tabulate_inv _ _ _ 0%R) in E0 as (L0 & E0). apply (tabulate_inv _ _ _ 0%R) in E1 as (L1 & E1). apply (tabulate_inv _ _ _ 0%R) in E2 as (L2 & E2).
  apply (tabulate_inv _ _ _ 0%R) in E3 as (L3 & E3). apply (tabulate_inv _ _ _ 0%R) in E4 as (L4 & E4). apply (tabulate_inv _ _ _ 0%R) in E5 as (L5 & E5).
  apply (tabulate_inv _ _ _ 0%R) in E6 as (L6 & E6). apply (tabulate_inv _ _ _ 0%R) in E7 as (L7 & E7).
  assert (ROW : forall r d, r < 4 -> (forall m, m < ndim -> (dr <- vget Dm r ;;
        s <- wsum dr [(0, nth 0 k []); (5, nth 5 k []); (6, nth 6 k []); (7, nth 7 k []); (8, nth 8 k []); (9, nth 9 k []); (10, nth 10 k []); (11, nth 11 k []);
                      (12, nth 11 k []); (13, kd0); (14, kd1); (15, kd2)] m ;; Ok (h * s)%R) = Ok (nth m d 0%R)) ->
     forall m, m < ndim -> nth m d 0%R = (h * (rsum 12 (fun i => nth i (nth r Dm []) 0 * nth m (nth i k []) 0) +
        nth 12 (nth r Dm []) 0 * nth m (nth 11 k []) 0 + nth 13 (nth r Dm []) 0 * nth m kd0 0 +
        nth 14 (nth r Dm []) 0 * nth m kd1 0 + nth 15 (nth r Dm []) 0 * nth m kd2 0))%R).
  { intros r d Hr H m Hm'. specialize (H m Hm'). rewrite (vget_ok Dm r []) in H by lia. cbn [bind] in H.
    pose proof (A5 r Hr) as Lr. pose proof (fun i => ZD r i Hr) as Z.
    set (row := nth r Dm []) in *. clearbody row.
    rewrite wsum_eq in H by (intros p Hp; cbn in Hp; repeat (destruct Hp as [<-|Hp]; [cbn; lia|]); destruct Hp). cbn [bind] in H. injection H as <-.
    cbn [fold_left fst snd rsum]. rewrite !(Z 1), !(Z 2), !(Z 3), !(Z 4) by (cbn; tauto). ring. }
  pose proof (ROW 0 d4 ltac:(lia) E4) as Q4. pose proof (ROW 1 d5 ltac:(lia) E5) as Q5. pose proof (ROW 2 d6 ltac:(lia) E6) as Q6. pose proof (ROW 3 d7 ltac:(lia) E7) as Q7.
  clear E4 E5 E6 E7 ROW. unfold dense_calculate. cbn [de_method de_d]. cbv zeta. apply tabulate_ok. intros m Hm'.
  specialize (E0 m Hm'). specialize (E1 m Hm'). specialize (E2 m Hm'). specialize (E3 m Hm').
  rewrite (vget_eq y m) in E0, E1, E2, E3 by lia. rewrite (vget_eq w m) in E1, E2, E3 by lia. rewrite (vget_eq (nth 0 k []) m) in E2, E3 by lia.
  rewrite (vget_eq (nth 11 k []) m) in E3 by lia. cbn [bind] in E0, E1, E2, E3.
  injection E0 as E0. injection E1 as E1. injection E2 as E2. injection E3 as E3.
  unfold mget. cbn [vget nth_error bind].
  rewrite (vget_eq d0 m), (vget_eq d1 m), (vget_eq d2 m), (vget_eq d3 m), (vget_eq d4 m), (vget_eq d5 m), (vget_eq d6 m), (vget_eq d7 m) by lia.
  cbn [bind]. change (nth 0 [kd0; kd1; kd2] []) with kd0. change (nth 1 [kd0; kd1; kd2] []) with kd1. change (nth 2 [kd0; kd1; kd2] []) with kd2.
  rewrite <- (Q4 m Hm'), <- (Q5 m Hm'), <- (Q6 m Hm'), <- (Q7 m Hm'), <- E0, <- E1, <- E2, <- E3. f_equal. unfold septic, quartic. replace (x + h - h)%R with x by ring. reflexivity.
Qed.

Lemma zero_row (l : list Q) (is : list nat) : forallb (fun i => Qeq_bool (nth i l 0%Q) 0%Q) is = true -> forall i, In i is -> nth i (Rrow l) 0%R = 0%R.
Proof using.
  intros H i Hi. rewrite forallb_forall in H. specialize (H i Hi). apply Qeq_bool_iff in H. rewrite Rrow_nth, <- Q2R0. now apply Qeq_eqR.
Qed.

Lemma update8 o x y h w k o' n : de_method o = DoPri8 -> length y = ndim -> length w = ndim -> vecs_ok ndim 12 k ->
  dense_update ndim f x y h w k o = Ok (o', n) -> n = 3 /\ exists kd, vecs_ok ndim 3 kd /\
    extra_stages (Rmat DORMAND_PRINCE_8_AD) (Rrow DORMAND_PRINCE_8_CD) x y h k kd /\ forall t, dense_calculate ndim t (x + h) h o' = Ok (dense8 x y w h k kd t).
Proof using f_dim.
  clear powf. intros Hm Ly Lw Vk E. rewrite update8_is in E by exact Hm.
  assert (X1 : forall r, r < 3 -> length (nth r (Rmat DORMAND_PRINCE_8_AD) []) = 15).
  { intros r Hr. rewrite Rmat_nth, Rrow_length. destruct r as [|[|[|r]]]; try reflexivity; lia. }
  assert (X2 : forall r, r < 4 -> length (nth r (Rmat DORMAND_PRINCE_8_D) []) = 16).
  { intros r Hr. rewrite Rmat_nth, Rrow_length. destruct r as [|[|[|[|r]]]]; try reflexivity; lia. }
  assert (X3 : forall i, In i [1; 2; 3; 4; 5] -> nth i (nth 0 (Rmat DORMAND_PRINCE_8_AD) []) 0%R = 0%R) by (rewrite Rmat_nth; now apply zero_row).
  assert (X4 : forall i, In i [1; 2; 3; 4; 8; 9] -> nth i (nth 1 (Rmat DORMAND_PRINCE_8_AD) []) 0%R = 0%R) by (rewrite Rmat_nth; now apply zero_row).
  assert (X5 : forall i, In i [1; 2; 3; 4; 9; 10; 11] -> nth i (nth 2 (Rmat DORMAND_PRINCE_8_AD) []) 0%R = 0%R) by (rewrite Rmat_nth; now apply zero_row).
  assert (X6 : forall r i, r < 4 -> In i [1; 2; 3; 4] -> nth i (nth r (Rmat DORMAND_PRINCE_8_D) []) 0%R = 0%R).
  { intros r i Hr. rewrite Rmat_nth. revert i. apply zero_row. destruct r as [|[|[|[|r]]]]; try reflexivity; lia. }
  destruct (update8_gen (Rmat DORMAND_PRINCE_8_AD) (Rmat DORMAND_PRINCE_8_D) (Rrow DORMAND_PRINCE_8_CD) x y h w k o' n eq_refl X1 eq_refl eq_refl X2 X3 X4 X5 X6 Ly Lw Vk E) as (N3 & kd & H1 & H2 & H3).
  split; [exact N3|]. exists kd. split; [exact H1|split; [exact H2|]]. intros t.
  rewrite (H3 t). clear. unfold dense8. apply f_equal. apply map_ext. intros m. cbv zeta. rewrite !Rmat_nth. reflexivity.
Qed.

(** `update` does not fail when the function does not *)
Lemma tab_total (g : nat -> res R) : (forall m, m < ndim -> exists v, g m = Ok v) -> exists v, tabulate ndim g = Ok v /\ length v = ndim.
Proof using.
  intros Hg. assert (X : tabulate ndim g = Ok (map (fun m => match g m with Ok v => v | _ => 0%R end) (seq 0 ndim))).
  { apply tabulate_ok. intros m Hm. destruct (Hg m Hm) as (v & ->). reflexivity. }
  eexists. split; [exact X|]. now rewrite map_length, seq_length.
Qed.

Lemma update5_total x y h w k d : de_method d = DoPri5 -> length y = ndim -> length w = ndim -> vecs_ok ndim 7 k ->
  exists q, dense_update ndim f x y h w k d = Ok q.
Proof using.
  clear f_dim. intros Hm Ly Lw (Lk & Lki). unfold dense_update. rewrite Hm.
  do 6 (rewrite (vget_ok k _ []) by lia; cbn [bind]). rewrite (vget_ok (Rmat DORMAND_PRINCE_5_D) 0 []) by (rewrite Rmat_length; cbn; lia). cbn [bind]. rewrite Rmat_nth.
  assert (Lr : length (Rrow (nth 0 DORMAND_PRINCE_5_D [])) = 7) by (rewrite Rrow_length; reflexivity). set (row := Rrow (nth 0 DORMAND_PRINCE_5_D [])) in *. clearbody row.
  pose proof (Lki 0 ltac:(lia)) as K0. pose proof (Lki 2 ltac:(lia)) as K2. pose proof (Lki 3 ltac:(lia)) as K3. pose proof (Lki 4 ltac:(lia)) as K4. pose proof (Lki 5 ltac:(lia)) as K5. pose proof (Lki 6 ltac:(lia)) as K6.
  repeat match goal with |- context [bind (tabulate ndim ?g) _] => let v := fresh "v" in let Ev := fresh "Ev" in let Lv := fresh "Lv" in
    destruct (tab_total g) as (v & Ev & Lv);
    [intros m Hm'; cbv beta; rewrite ?wsum_eq by (intros q Hq; cbn in Hq; repeat (destruct Hq as [<-|Hq]; [cbn; lia|]); destruct Hq); rewrite ?(vget_eq _ m) by lia; eexists; reflexivity|rewrite Ev; cbn [bind]] end.
  eexists. reflexivity.
Qed.

Lemma update8_gen_total AD Dm CD x y h w k : (forall u z, length z = ndim -> exists k, f u z = Ok k) ->
  length AD = 3 -> (forall r, r < 3 -> length (nth r AD []) = 15) -> length CD = 3 -> length Dm = 4 -> (forall r, r < 4 -> length (nth r Dm []) = 16) ->
  length y = ndim -> length w = ndim -> vecs_ok ndim 12 k -> exists q, update8_with AD Dm CD x y h w k = Ok q.
Proof using f_dim.
  clear powf. intros FT A1 A2 A3 A4 A5 Ly Lw (Lk & Lki). unfold update8_with.
  do 8 (rewrite (vget_ok k _ []) by lia; cbn [bind]).
  do 3 (rewrite (vget_ok AD _ []) by lia; cbn [bind]). do 3 (rewrite (vget_ok CD _ 0%R) by lia; cbn [bind]).
  do 4 (rewrite (vget_ok Dm _ []) by lia).
  pose proof (A2 0 ltac:(lia)) as LA0. pose proof (A2 1 ltac:(lia)) as LA1. pose proof (A2 2 ltac:(lia)) as LA2.
  pose proof (A5 0 ltac:(lia)) as LD0. pose proof (A5 1 ltac:(lia)) as LD1. pose proof (A5 2 ltac:(lia)) as LD2. pose proof (A5 3 ltac:(lia)) as LD3.
  assert (KK : forall i, i < 12 -> length (nth i k []) = ndim) by (intros; apply Lki; lia).
  pose proof (KK 0 ltac:(lia)) as K0. pose proof (KK 5 ltac:(lia)) as K5. pose proof (KK 6 ltac:(lia)) as K6. pose proof (KK 7 ltac:(lia)) as K7.
  pose proof (KK 8 ltac:(lia)) as K8. pose proof (KK 9 ltac:(lia)) as K9. pose proof (KK 10 ltac:(lia)) as K10. pose proof (KK 11 ltac:(lia)) as K11. clear KK Lki.
  cbv zeta.
  repeat match goal with
  | |- context [bind (tabulate ndim ?g) _] => let v := fresh "v" in let Ev := fresh "Ev" in let Lv := fresh "Lv" in
    destruct (tab_total g) as (v & Ev & Lv);
    [intros m Hm; cbv beta; cbn [bind]; rewrite ?wsum_eq by (intros q Hq; cbn in Hq; repeat (destruct Hq as [<-|Hq]; [cbn; lia|]); destruct Hq); rewrite ?(vget_eq _ m) by lia; eexists; reflexivity|rewrite Ev; cbn [bind]; clear Ev]
  | L : length ?v = ndim |- context [bind (f ?u ?v) _] => let k := fresh "k" in let Ek := fresh "Ek" in destruct (FT u v L) as (k & Ek); pose proof (f_dim _ _ _ L Ek); rewrite Ek; cbn [bind]; clear Ek
  end.
  eexists. reflexivity.
Qed.

Lemma update8_total (FT : forall u z, length z = ndim -> exists k, f u z = Ok k) x y h w k d : de_method d = DoPri8 -> length y = ndim -> length w = ndim -> vecs_ok ndim 12 k ->
  exists q, dense_update ndim f x y h w k d = Ok q.
Proof using f_dim.
  clear powf. intros Hm Ly Lw Vk. rewrite update8_is by exact Hm. apply update8_gen_total; auto.
  - intros r Hr. rewrite Rmat_nth, Rrow_length. destruct r as [|[|[|r]]]; try reflexivity; lia.
  - intros r Hr. rewrite Rmat_nth, Rrow_length. destruct r as [|[|[|[|r]]]]; try reflexivity; lia.
Qed.

Lemma quartic_0 d0 d1 d2 d3 d4 : quartic d0 d1 d2 d3 d4 0 = d0. Proof. unfold quartic. ring. Qed.
Lemma quartic_1 d0 d1 d2 d3 d4 : quartic d0 d1 d2 d3 d4 1 = (d0 + d1)%R. Proof. unfold quartic. ring. Qed.

Lemma septic_derive d0 d1 d2 d3 d4 d5 d6 d7 x h t : h <> 0%R -> t = x \/ t = (x + h)%R ->
  is_derive (fun t => septic d0 d1 d2 d3 d4 d5 d6 d7 ((t - x) / h)) t (if Reqb t x then (d1 + d2) / h else (d1 - d2 - d3) / h)%R.
Proof.
  intros Hh Ht. unfold septic, quartic. auto_derive; [auto|].
  destruct Ht as [-> | ->].
  - rewrite (proj2 (Reqb_true x x)) by reflexivity. replace (x + - x)%R with 0%R by ring. replace (0 * / h)%R with 0%R by ring. field. exact Hh.
  - rewrite (proj2 (Reqb_false (x + h) x)) by lra. replace (x + h + - x)%R with h by ring. rewrite Rinv_r by exact Hh. field. exact Hh.
Qed.

Lemma septic_derive' d0 d1 d2 d3 d4 d5 d6 d7 x h t v : h <> 0%R -> t = x \/ t = (x + h)%R ->
  v = (if Reqb t x then (d1 + d2) / h else (d1 - d2 - d3) / h)%R -> is_derive (fun t => septic d0 d1 d2 d3 d4 d5 d6 d7 ((t - x) / h)) t v.
Proof. intros Hh Ht ->. now apply septic_derive. Qed.

Lemma septic_ends d0 d1 d2 d3 d4 d5 d6 d7 : septic d0 d1 d2 d3 d4 d5 d6 d7 0 = d0 /\ septic d0 d1 d2 d3 d4 d5 d6 d7 1 = (d0 + d1)%R.
Proof. unfold septic, quartic. split; ring. Qed.

Lemma dense8_ends x y w h k kd : length y = ndim -> length w = ndim -> h <> 0%R ->
  dense8 x y w h k kd x = y /\ dense8 x y w h k kd (x + h) = w /\
  forall m, m < ndim -> is_derive (fun t => nth m (dense8 x y w h k kd t) 0%R) x (nth m (nth 0 k []) 0%R) /\
                        is_derive (fun t => nth m (dense8 x y w h k kd t) 0%R) (x + h)%R (nth m (nth 11 k []) 0%R).
Proof.
  intros Ly Lw Hh. splits.
  - apply (vec_ext _ _ ndim); [unfold dense8; now rewrite map_length, seq_length|exact Ly|]. intros m Hm. unfold dense8. rewrite nth_tabmap by exact Hm. cbv zeta.
    replace ((x - x) / h)%R with 0%R by (unfold Rdiv; ring). apply septic_ends.
  - apply (vec_ext _ _ ndim); [unfold dense8; now rewrite map_length, seq_length|exact Lw|]. intros m Hm. unfold dense8. rewrite nth_tabmap by exact Hm. cbv zeta.
    replace ((x + h - x) / h)%R with 1%R by (field; exact Hh). rewrite (proj2 (septic_ends _ _ _ _ _ _ _ _)). ring.
  - intros m Hm. split.
    + eapply is_derive_ext; [intros t; symmetry; unfold dense8; rewrite nth_tabmap by exact Hm; cbv zeta; reflexivity|].
      apply septic_derive'; [exact Hh|now left|].
      rewrite (proj2 (Reqb_true x x)) by reflexivity. field. exact Hh.
    + eapply is_derive_ext; [intros t; symmetry; unfold dense8; rewrite nth_tabmap by exact Hm; cbv zeta; reflexivity|].
      apply septic_derive'; [exact Hh|now right|].
      rewrite (proj2 (Reqb_false (x + h) x)) by lra. field. exact Hh.
Qed.

Lemma dense5_ends x y w h k : length y = ndim -> length w = ndim -> h <> 0%R ->
  dense5 x y w h k x = y /\ dense5 x y w h k (x + h) = w /\
  forall m, m < ndim -> is_derive (fun t => nth m (dense5 x y w h k t) 0%R) x (nth m (nth 0 k []) 0%R) /\
                        is_derive (fun t => nth m (dense5 x y w h k t) 0%R) (x + h)%R (nth m (nth 6 k []) 0%R).
Proof.
  assert (S : forall d0 d1 d2 d3 d4 th, quartic d0 d1 d2 d3 d4 th = septic d0 d1 d2 d3 d4 0 0 0 th) by (intros; unfold septic, quartic; ring).
  intros Ly Lw Hh. splits.
  - apply (vec_ext _ _ ndim); [unfold dense5; now rewrite map_length, seq_length|exact Ly|]. intros m Hm. unfold dense5. rewrite nth_tabmap by exact Hm. cbv zeta.
    replace ((x - x) / h)%R with 0%R by (unfold Rdiv; ring). apply quartic_0.
  - apply (vec_ext _ _ ndim); [unfold dense5; now rewrite map_length, seq_length|exact Lw|]. intros m Hm. unfold dense5. rewrite nth_tabmap by exact Hm. cbv zeta.
    replace ((x + h - x) / h)%R with 1%R by (field; exact Hh). rewrite quartic_1. ring.
  - intros m Hm. split.
    + eapply is_derive_ext; [intros t; symmetry; unfold dense5; rewrite nth_tabmap by exact Hm; cbv zeta; rewrite S; reflexivity|].
      apply septic_derive'; [exact Hh|now left|].
      rewrite (proj2 (Reqb_true x x)) by reflexivity. field. exact Hh.
    + eapply is_derive_ext; [intros t; symmetry; unfold dense5; rewrite nth_tabmap by exact Hm; cbv zeta; rewrite S; reflexivity|].
      apply septic_derive'; [exact Hh|now right|].
      rewrite (proj2 (Reqb_false (x + h) x)) by lra. field. exact Hh.
Qed.

(** a step taken from (x, y) and accepted, on a solver whose dense output is enabled *)
Definition accepted_step (s0 : erk) (w0 : workspace) (x : R) (y : vec) (h : R) (s : erk) (x' : R) (y' : vec) (s' : erk) : Prop :=
  wf ndim s0 /\ length y = ndim /\ (needs_k0 s0 w0 = false -> f x y = Ok (nth 0 (e_k s0) [])) /\ h <> 0%R /\
  (exists w, erk_step ndim f s0 w0 x y h = Ok (s, w)) /\ (exists w w', erk_accept ndim f powf s w x y h = Ok (s', w', x', y')) /\
  exists o, e_dense s = Some o /\ de_method o = p_method (e_params s).

(** P is differentiable at t with the slope of the differential equation *)
Definition slope (P : R -> vec) (t : R) (v : vec) : Prop := forall m, m < ndim -> is_derive (fun u => nth m (P u) 0%R) t (nth m v 0%R).

Lemma accepted_facts s0 w0 x y h s x' y' s' : accepted_step s0 w0 x y h s x' y' s' ->
  exists A b c ee o o' n, erk_wf ndim s A b c ee /\ is_stages f (Rmat A) (Rrow c) x y h (e_k s) /\ e_w s = new_solution (Rrow b) y h (e_k s) /\
    p_method (e_params s) = p_method (e_params s0) /\ de_method o = p_method (e_params s) /\ x' = (x + h)%R /\ y' = e_w s /\ length (e_w s) = ndim /\
    dense_update ndim f x y h (e_w s) (e_k s) o = Ok (o', n) /\ e_dense s' = Some o' /\ f x y = Ok (nth 0 (e_k s) []).
Proof using f_dim.
  intros ((A & b & c & ee & WF) & Ly & N & Hh & (w & Es) & (w1 & w' & Ea) & o & Ho & Hm).
  destruct (C50_step ndim f f_dim _ _ _ _ _ _ _ _ _ _ _ WF Ly N Es) as (WF' & P1 & ST & NW & _).
  destruct (C50_accept _ _ powf _ _ _ _ _ _ _ _ _ _ _ _ _ WF' Ly Ea) as (-> & ->). destruct (accept_dense _ _ _ _ _ _ _ _ _ _ Ea Ho) as (o' & n & U & D).
  exists A, b, c, ee, o, o', n. splits; auto; [now rewrite P1|exact (wf_w _ _ _ _ _ _ WF')|].
  destruct ST as (L & ST). destruct (tableau_facts _ _ _ _ (wf_tab _ _ _ _ _ _ WF)) as (T1 & T2 & T3 & T4 & T5).
  specialize (ST 0). rewrite stage_point_0 in ST. replace (nth 0 (Rrow c) 0%R) with 0%R in ST.
  - rewrite Rmult_0_l, Rplus_0_r in ST. apply ST. rewrite Rmat_length. lia.
  - rewrite Rrow_nth. symmetry. exact T5.
Qed.

(** DoPri5: the curve runs from (x, y) to (x', y') with the slopes of the differential equation at both ends *)
Theorem C52_dopri5 : forall s0 w0 x y h s x' y' s', accepted_step s0 w0 x y h s x' y' s' -> p_method (e_params s0) = DoPri5 ->
  exists P : R -> vec, (forall t yo, erk_dense_output ndim s' t x' yo h = Ok (P t)) /\
    P x = y /\ P x' = y' /\
    (exists k, f x y = Ok k /\ slope P x k) /\ (exists k, f x' y' = Ok k /\ slope P x' k).
Proof using f_dim.
  intros s0 w0 x y h s x' y' s' H Hm. pose proof H as (_ & Ly & _ & Hh & _).
  destruct (accepted_facts _ _ _ _ _ _ _ _ _ H) as (A & b & c & ee & o & o' & n & WF & ST & NW & P1 & P2 & -> & -> & Lw & U & D & F0).
  pose proof (wf_tab _ _ _ _ _ _ WF) as Et. rewrite P1, Hm in Et. injection Et as <- <- <-.
  destruct (update5 o x y h (e_w s) (e_k s) o' n) as (_ & C); auto; [congruence|exact (wf_k _ _ _ _ _ _ WF)|].
  destruct (dense5_ends x y (e_w s) h (e_k s) Ly Lw Hh) as (E1 & E2 & E3).
  exists (dense5 x y (e_w s) h (e_k s)). splits; auto.
  - intros t yo. unfold erk_dense_output. rewrite D. apply C.
  - eexists. split; [exact F0|]. intros m Hm'. now apply E3.
  - exists (nth 6 (e_k s) []). split; [|intros m Hm'; now apply E3]. rewrite NW.
    exact (fsal_last f DoPri5 _ _ _ x y h (e_k s) eq_refl eq_refl ST).
Qed.

(** DoPri8: the curve runs from (x, y) to (x', y') with the slope of the differential equation at x;
    its slope at x' is the twelfth stage *)
Theorem C52_dopri8 : forall s0 w0 x y h s x' y' s', accepted_step s0 w0 x y h s x' y' s' -> p_method (e_params s0) = DoPri8 ->
  exists P : R -> vec, (forall t yo, erk_dense_output ndim s' t x' yo h = Ok (P t)) /\
    P x = y /\ P x' = y' /\
    (exists k, f x y = Ok k /\ slope P x k) /\ slope P x' (nth 11 (e_k s) []).
Proof using f_dim.
  intros s0 w0 x y h s x' y' s' H Hm. pose proof H as (_ & Ly & _ & Hh & _).
  destruct (accepted_facts _ _ _ _ _ _ _ _ _ H) as (A & b & c & ee & o & o' & n & WF & ST & NW & P1 & P2 & -> & -> & Lw & U & D & F0).
  pose proof (wf_tab _ _ _ _ _ _ WF) as Et. rewrite P1, Hm in Et. injection Et as <- <- <-.
  destruct (update8 o x y h (e_w s) (e_k s) o' n) as (_ & kd & _ & _ & C); auto; [congruence|exact (wf_k _ _ _ _ _ _ WF)|].
  destruct (dense8_ends x y (e_w s) h (e_k s) kd Ly Lw Hh) as (E1 & E2 & E3).
  exists (dense8 x y (e_w s) h (e_k s) kd). splits; auto.
  - intros t yo. unfold erk_dense_output. rewrite D. apply C.
  - eexists. split; [exact F0|]. intros m Hm'. now apply E3.
  - intros m Hm'. now apply E3.
Qed.

(** dense output can be enabled for DoPri5 and DoPri8 only; other methods refuse with an error *)
Theorem C52_available : forall s, wf ndim s ->
  match erk_enable_dense ndim s with
  | Ok s' => (p_method (e_params s) = DoPri5 \/ p_method (e_params s) = DoPri8) /\ wf ndim s' /\
             exists o, e_dense s' = Some o /\ de_method o = p_method (e_params s')
  | Err _ => p_method (e_params s) <> DoPri5 /\ p_method (e_params s) <> DoPri8
  | Panic => False
  end.
Proof.
  intros s (A & b & c & ee & WF). unfold erk_enable_dense, dense_new.
  destruct (p_method (e_params s)) eqn:Em; cbn [bind]; try (split; discriminate);
    (split; [auto|split; [exists A, b, c, ee; now apply wf_set_dense|]]; eexists; split; [reflexivity|cbn; now rewrite Em]).
Qed.
End Dense.

(** * DoPri5: the curve has order 4 at every point of the step *)

(** the weight of stage i at x + theta h *)
Definition dense5_weight (th : R) (i : nat) : R :=
  let b := nth i (Rrow DORMAND_PRINCE_5_B) 0%R in
  let d0 := (if i =? 0 then 1 else 0)%R in let d6 := (if i =? 6 then 1 else 0)%R in
  (th * (b + (1 - th) * (d0 - b + th * (2 * b - d0 - d6 + (1 - th) * nth i (Rrow (nth 0 DORMAND_PRINCE_5_D [])) 0))))%R.

Lemma dense5_as_weights ndim x y h k th m : h <> 0%R -> length y = ndim -> m < ndim ->
  nth m (dense5 ndim x y (new_solution (Rrow DORMAND_PRINCE_5_B) y h k) h k (x + th * h)%R) 0%R =
  (nth m y 0 + h * rsum 7 (fun i => dense5_weight th i * nth m (nth i k []) 0))%R.
Proof.
  intros Hh Ly Hm. unfold dense5. rewrite nth_tabmap by exact Hm. cbv zeta. unfold new_solution. rewrite nth_tabmap by lia. unfold comb.
  replace (length (Rrow DORMAND_PRINCE_5_B)) with 7 by reflexivity.
  replace ((x + th * h - x) / h)%R with th by (field; exact Hh). unfold quartic, dense5_weight. cbv zeta.
  set (B := Rrow DORMAND_PRINCE_5_B). set (D := Rrow (nth 0 DORMAND_PRINCE_5_D [])). clearbody B D.
  cbn [rsum Nat.eqb]. ring.
Qed.

(** coefficients of theta, theta^2, theta^3, theta^4 in the weights *)
Definition q5 (g : Q -> Q -> Q -> Q -> Q) : list Q :=
  map (fun i => Qred (g (nth i DORMAND_PRINCE_5_B 0) (if i =? 0 then 1 else 0) (if i =? 6 then 1 else 0) (nth i (nth 0 DORMAND_PRINCE_5_D []) 0))%Q) (seq 0 7).
Definition B1 : list Q := q5 (fun b d0 d6 D => d0).
Definition B2 : list Q := q5 (fun b d0 d6 D => 3 * b - 2 * d0 - d6 + D)%Q.
Definition B3 : list Q := q5 (fun b d0 d6 D => - (2 * b - d0 - d6) - 2 * D)%Q.
Definition B4 : list Q := q5 (fun b d0 d6 D => D).
Definition D5 : BinNums.positive := Eval vm_compute in common DORMAND_PRINCE_5_A (B1 ++ B2 ++ B3 ++ B4).

Definition coef_ok (q : nat) (b : list Q) (t : tree) : bool :=
  if q =? order t then check_tree D5 DORMAND_PRINCE_5_A b 0 t
  else Z.eqb (zweight (map (map (toZ D5)) DORMAND_PRINCE_5_A) (map (toZ D5) b) t) 0.
Definition coefs_ok (t : tree) : bool := coef_ok 1 B1 t && coef_ok 2 B2 t && coef_ok 3 B3 t && coef_ok 4 B4 t.
Definition trees_upto (n : nat) : list tree := flat_map (fun k => map Node (forests (S k) k)) (seq 0 n).

Lemma trees_upto_complete n t : order t <= n -> In t (trees_upto n).
Proof.
  intros H. destruct t as [l]. cbn [order] in H. fold (forest_order l) in H. apply in_flat_map. exists (forest_order l). split; [apply in_seq; lia|].
  apply in_map. apply forests_complete; [lia|reflexivity].
Qed.

Lemma coefs_checked : forallb coefs_ok (trees_upto 4) = true.
Proof. vm_compute. reflexivity. Qed.
Lemma coefs_scaled : scaled D5 DORMAND_PRINCE_5_A B1 && scaled D5 DORMAND_PRINCE_5_A B2 && scaled D5 DORMAND_PRINCE_5_A B3 && scaled D5 DORMAND_PRINCE_5_A B4 = true.
Proof. vm_compute. reflexivity. Qed.

Lemma coef_value q b t : scaled D5 DORMAND_PRINCE_5_A b = true -> coef_ok q b t = true ->
  (weight DORMAND_PRINCE_5_A b t == if (q =? order t)%nat then 1 / inject_Z (density t) else 0)%Q.
Proof.
  intros S C. apply andb_true_iff in S as (S1 & S2). unfold coef_ok in C. destruct (q =? order t).
  - exact (check_exact D5 _ _ S1 S2 t C).
  - apply Z.eqb_eq in C. pose proof (zweight_ok D5 _ _ S1 S2 t) as E. rewrite C in E. symmetry in E.
    apply Qmult_integral in E as [E|E]; [exact E|]. now apply pw_nz in E.
Qed.

Lemma dot_rsum (g : nat -> Q) : forall (l : list Q) k n, length l = n ->
  Q2R (dotq l (map g (seq k n))) = rsum n (fun i => Q2R (nth i l 0%Q) * Q2R (g (k + i)%nat))%R.
Proof.
  intros l. induction l as [|a l IH]; intros k n Hn; subst n; [cbn; unfold Q2R; cbn; lra|].
  assert (SH : forall n F, rsum (S n) F = (F 0%nat + rsum n (fun i => F (S i)))%R).
  { induction n as [|n IHn]; intros F; [cbn; lra|]. cbn [rsum]. cbn [rsum] in IHn. rewrite IHn. lra. }
  cbn [length seq map]. rewrite SH. unfold dotq, qsum. cbn [combine map fold_right fst snd].
  rewrite Q2R_plus, Q2R_mult. change (fold_right Qplus 0%Q (map (fun p => (fst p * snd p)%Q) (combine l (map g (seq (S k) (length l)))))) with (dotq l (map g (seq (S k) (length l)))).
  rewrite (IH (S k) _ eq_refl). cbn [nth]. rewrite Nat.add_0_r. f_equal. apply rsum_ext. intros i _. now rewrite Nat.add_succ_r.
Qed.

(** every order condition of the trees with at most 4 vertices, at every theta:
    the interpolant agrees with the exact solution up to O(h^5) anywhere in the step *)
Theorem C52_dopri5_order4 : forall t th, order t <= 4 ->
  rsum 7 (fun i => dense5_weight th i * Q2R (stage_weight DORMAND_PRINCE_5_A t i))%R = (th ^ order t / IZR (density t))%R.
Proof.
  intros t th Ht. pose proof (proj1 (forallb_forall _ _) coefs_checked t (trees_upto_complete 4 t Ht)) as C. unfold coefs_ok in C.
  apply andb_true_iff in C as (C & C4). apply andb_true_iff in C as (C & C3). apply andb_true_iff in C as (C1 & C2).
  pose proof coefs_scaled as S. apply andb_true_iff in S as (S & S4). apply andb_true_iff in S as (S & S3). apply andb_true_iff in S as (S1 & S2).
  pose proof (Qeq_eqR _ _ (coef_value _ _ _ S1 C1)) as V1. pose proof (Qeq_eqR _ _ (coef_value _ _ _ S2 C2)) as V2.
  pose proof (Qeq_eqR _ _ (coef_value _ _ _ S3 C3)) as V3. pose proof (Qeq_eqR _ _ (coef_value _ _ _ S4 C4)) as V4.
  clear S1 S2 S3 S4 C1 C2 C3 C4. unfold weight in V1, V2, V3, V4. change (length DORMAND_PRINCE_5_A) with 7 in *.
  rewrite dot_rsum in V1, V2, V3, V4 by reflexivity.
  assert (SUM : rsum 7 (fun i => dense5_weight th i * Q2R (stage_weight DORMAND_PRINCE_5_A t i))%R =
    (th * rsum 7 (fun i => Q2R (nth i B1 0%Q) * Q2R (stage_weight DORMAND_PRINCE_5_A t (0 + i)%nat)) + th ^ 2 * rsum 7 (fun i => Q2R (nth i B2 0%Q) * Q2R (stage_weight DORMAND_PRINCE_5_A t (0 + i)%nat)) +
     th ^ 3 * rsum 7 (fun i => Q2R (nth i B3 0%Q) * Q2R (stage_weight DORMAND_PRINCE_5_A t (0 + i)%nat)) + th ^ 4 * rsum 7 (fun i => Q2R (nth i B4 0%Q) * Q2R (stage_weight DORMAND_PRINCE_5_A t (0 + i)%nat)))%R).
  { rewrite <- !rsum_mul, <- !rsum_plus. apply rsum_ext. intros i Hi. rewrite Nat.add_0_l. set (g := Q2R (stage_weight _ t i)).
    assert (QB : Q2R (nth i B1 0%Q) = (if i =? 0 then 1 else 0)%R /\
                 Q2R (nth i B2 0%Q) = (3 * Q2R (nth i DORMAND_PRINCE_5_B 0%Q) - 2 * (if i =? 0 then 1 else 0) - (if i =? 6 then 1 else 0) + Q2R (nth i (nth 0 DORMAND_PRINCE_5_D []) 0%Q))%R /\
                 Q2R (nth i B3 0%Q) = (- (2 * Q2R (nth i DORMAND_PRINCE_5_B 0%Q) - (if i =? 0 then 1 else 0) - (if i =? 6 then 1 else 0)) - 2 * Q2R (nth i (nth 0 DORMAND_PRINCE_5_D []) 0%Q))%R /\
                 Q2R (nth i B4 0%Q) = Q2R (nth i (nth 0 DORMAND_PRINCE_5_D []) 0%Q)).
    { unfold B1, B2, B3, B4, q5. 
      assert (NM : forall (F : nat -> Q), nth i (map F (seq 0 7)) 0%Q = F i).
      { intros F. rewrite (nth_indep _ 0%Q (F 0)) by (rewrite map_length, seq_length; exact Hi). rewrite map_nth, seq_nth by exact Hi. reflexivity. }
      rewrite !NM. rewrite !(Qeq_eqR _ _ (Qred_correct _)).
      set (b := nth i DORMAND_PRINCE_5_B 0%Q). set (D := nth i (nth 0 DORMAND_PRINCE_5_D []) 0%Q). clearbody b D.
      assert (Q1 : Q2R 1 = 1%R) by (unfold Q2R; cbn; lra). assert (Q2 : Q2R 2 = 2%R) by (unfold Q2R; cbn; lra). assert (Q3 : Q2R 3 = 3%R) by (unfold Q2R; cbn; lra).
      destruct (i =? 0), (i =? 6); splits; rewrite ?Q2R_plus, ?Q2R_minus, ?Q2R_opp, ?Q2R_minus, ?Q2R_mult, ?Q2R_minus, ?Q2R_mult, ?Q1, ?Q2, ?Q3, ?Q2R0; lra. }
    destruct QB as (-> & -> & -> & ->). unfold dense5_weight. cbv zeta. rewrite !Rrow_nth. ring. }
  rewrite SUM, V1, V2, V3, V4. clear SUM V1 V2 V3 V4.
  assert (QD : Q2R (1 / inject_Z (density t)) = (/ IZR (density t))%R).
  { unfold Qdiv. rewrite Q2R_mult, Q2R_inv; [unfold Q2R; cbn [Qnum Qden inject_Z]; rewrite Rinv_1, !Rmult_1_r; ring|]. pose proof (density_pos t). unfold Qeq; cbn. lia. }
  assert (1 <= order t) by (destruct t; cbn; lia).
  destruct (order t) as [|[|[|[|[|n]]]]]; try lia; cbn [Nat.eqb]; rewrite QD, Q2R0; unfold Rdiv; ring.
Qed.

(** * DoPri8: the slope at the end of the step is not that of the differential equation *)

(** a Lipschitz right-hand side that vanishes for t <= 6/7:  y' = max(0, 7 t - 6) (1 - y) *)
Definition late (t : R) (z : vec) : res vec := Ok (map (fun v => (Rmax 0 (7 * t - 6) * (1 - v))%R) z).

Lemma late_dim : keeps_dim 1 late.
Proof. intros x y k L E. injection E as <-. now rewrite map_length. Qed.

Lemma c8_early i : i < 11 -> (Q2R (nth i DORMAND_PRINCE_8_C 0%Q) <= 6 / 7)%R.
Proof.
  intros Hi. replace (6 / 7)%R with (Q2R (6 # 7)) by (unfold Q2R; cbn; lra). apply Qle_Rle.
  assert (C : forallb (fun i => Qle_bool (nth i DORMAND_PRINCE_8_C 0%Q) (6 # 7)) (seq 0 11) = true) by (vm_compute; reflexivity).
  apply Qle_bool_iff. rewrite forallb_forall in C. apply C. apply in_seq. lia.
Qed.

(** one step of size 1 from y(0) = 0 *)
Lemma late_stages k : is_stages late (Rmat DORMAND_PRINCE_8_A) (Rrow DORMAND_PRINCE_8_C) 0 [0%R] 1 k ->
  (forall i, i < 11 -> nth i k [] = [0%R]) /\ nth 11 k [] = [1%R].
Proof.
  intros (L & ST). change (length (Rmat DORMAND_PRINCE_8_A)) with 12 in *.
  assert (Z : forall i, i < 11 -> nth i k [] = [0%R]).
  { intros i Hi. specialize (ST i ltac:(lia)). unfold late in ST. rewrite Rrow_nth in ST. pose proof (c8_early i Hi) as C.
    rewrite Rmax_left in ST by lra. unfold stage_point in ST. cbn [length seq map] in ST. injection ST as <-. f_equal. ring. }
  split; [exact Z|]. specialize (ST 11 ltac:(lia)). unfold late in ST. rewrite Rrow_nth in ST.
  assert (C11 : Q2R (nth 11 DORMAND_PRINCE_8_C 0%Q) = 1%R) by (rewrite <- RMicromega.Q2R_1; apply Qeq_eqR; reflexivity).
  rewrite C11 in ST. assert (ST2 : stage_point (Rmat DORMAND_PRINCE_8_A) [0%R] 1 k 11 = [0%R]).
  { unfold stage_point. cbn [length seq map]. f_equal. rewrite rsum_zero by (intros j Hj; rewrite Z by exact Hj; cbn [nth]; ring). cbn [nth]. ring. }
  rewrite ST2 in ST. cbn [map] in ST. injection ST as <-. rewrite Rmax_right by lra. f_equal. ring.
Qed.

Theorem C52_dopri8_end_slope_refuted : forall powf s0 w0 s x' y' s', accepted_step 1 late powf s0 w0 0 [0%R] 1 s x' y' s' ->
  p_method (e_params s0) = DoPri8 ->
  exists P k, (forall t yo, erk_dense_output 1 s' t x' yo 1 = Ok (P t)) /\ late x' y' = Ok k /\ ~ slope 1 P x' k.
Proof.
  intros powf s0 w0 s x' y' s' H Hm. destruct (C52_dopri8 1 late powf late_dim _ _ _ _ _ _ _ _ _ H Hm) as (P & E & _ & _ & _ & S).
  destruct (accepted_facts 1 late powf late_dim _ _ _ _ _ _ _ _ _ H) as (A & b & c & ee & o & o' & n & WF & ST & NW & P1 & P2 & -> & -> & Lw & U & D & F0).
  pose proof (wf_tab _ _ _ _ _ _ WF) as Et. rewrite P1, Hm in Et. injection Et as <- <- <-.
  destruct (late_stages _ ST) as (Z & K11).
  exists P, (map (fun v => (Rmax 0 (7 * (0 + 1) - 6) * (1 - v))%R) (e_w s)). splits; [exact E|reflexivity|]. intros S'.
  specialize (S 0 ltac:(lia)). specialize (S' 0 ltac:(lia)). rewrite K11 in S. cbn [nth] in S.
  apply is_derive_unique in S. apply is_derive_unique in S'. rewrite S in S'. clear S.
  rewrite NW in S'. cbn [new_solution length seq map nth] in S'.
  assert (CB : comb (Rrow DORMAND_PRINCE_8_B) (e_k s) 0 = Q2R (nth 11 DORMAND_PRINCE_8_B 0%Q)).
  { unfold comb. change (length (Rrow DORMAND_PRINCE_8_B)) with 12. cbn [rsum]. rewrite !Z by lia. rewrite K11. rewrite !Rrow_nth.
    generalize (nth 11 DORMAND_PRINCE_8_B 0%Q). intros q. cbn [nth]. lra. }
  rewrite CB in S'. rewrite Rmax_right in S' by lra.
  assert (B11 : (0 < Q2R (nth 11 DORMAND_PRINCE_8_B 0%Q))%R).
  { rewrite <- RMicromega.Q2R_0. apply Qlt_Rlt. reflexivity. }
  lra.
Qed.

(** non-vacuity: a fresh solver of either method, with dense output enabled, takes and accepts such a step *)
Lemma accepted_step_exists ndim f powf p y x h : keeps_dim ndim f -> (forall u z, length z = ndim -> exists k, f u z = Ok k) ->
  p_method p = DoPri5 \/ p_method p = DoPri8 -> ps_enabled (p_stiff p) = false -> length y = ndim -> h <> 0%R ->
  exists s0 s x' y' s', p_method (e_params s0) = p_method p /\ accepted_step ndim f powf s0 workspace_new x y h s x' y' s'.
Proof.
  intros FD FT Hp Hs Ly Hh.
  destruct (erk_new p ndim) as [sn|e|] eqn:E; [|unfold erk_new in E; destruct Hp as [Hp|Hp]; rewrite Hp in E; discriminate E..].
  destruct (C50_new _ _ _ E) as (A & b & c & ee & WF & P1 & _).
  pose proof (C52_available ndim sn (ex_intro _ A (ex_intro _ b (ex_intro _ c (ex_intro _ ee WF))))) as AV.
  unfold erk_enable_dense in AV. destruct (dense_new (p_method (e_params sn)) ndim) as [d|e|] eqn:Ed; cbn [bind] in AV;
    [|exfalso; rewrite P1 in AV; destruct AV; destruct Hp; congruence|destruct AV].
  destruct AV as (_ & _ & o & Eo & Mo). cbn in Eo. injection Eo as <-. set (s0 := set_e_dense (Some d) sn) in *.
  assert (WF0 : erk_wf ndim s0 A b c ee) by now apply wf_set_dense.
  destruct (C50_total ndim f FD s0 _ _ _ _ workspace_new x y h WF0 Ly FT) as (s & w & Es).
  assert (N : needs_k0 s0 workspace_new = false -> f x y = Ok (nth 0 (e_k s0) [])) by (unfold needs_k0; cbn; discriminate).
  destruct (C50_step ndim f FD _ _ _ _ _ _ _ _ _ _ _ WF0 Ly N Es) as (WF' & Q1 & ST & NW & _).
  assert (ED : e_dense s = Some d).
  { clear - Es. unfold erk_step, erk_step_gen in Es. apply bind_ok in Es as (k & _ & Es). apply bind_ok in Es as ([[k' v'] w2] & _ & Es).
    unfold erk_finish in Es. destruct (negb _).
    - apply bind_ok in Es as (? & _ & Es). injection Es as <- <-. reflexivity.
    - apply bind_ok in Es as (? & _ & Es). apply bind_ok in Es as ([? ?] & _ & Es). injection Es as <- <-. reflexivity. }
  assert (PM : p_method (e_params s) = p_method p) by (rewrite Q1; cbn; now rewrite P1).
  assert (AC : exists q, erk_accept ndim f powf s w x y h = Ok q).
  { unfold erk_accept. rewrite ED.
    assert (DU : exists q, dense_update ndim f x y h (e_w s) (e_k s) d = Ok q).
    { pose proof (wf_k _ _ _ _ _ _ WF') as (Lk & Lki). pose proof (wf_w _ _ _ _ _ _ WF') as Lw. pose proof (wf_tab _ _ _ _ _ _ WF') as Et. rewrite PM in Et.
      assert (MD : de_method d = p_method p) by (rewrite Mo; cbn; now rewrite P1).
      destruct Hp as [Hp|Hp]; rewrite Hp in Et, MD; rename MD into MD8; injection Et as <- <- <-.
      - exact (update5_total ndim f x y h (e_w s) (e_k s) d MD8 Ly Lw (conj Lk Lki)).
      - exact (update8_total ndim f FD FT x y h (e_w s) (e_k s) d MD8 Ly Lw (conj Lk Lki)). }
    destruct DU as ([o' n'] & ->). cbn [bind]. cbv zeta.
    rewrite vcopy_ok by (cbn [e_w set_e_dense]; rewrite (wf_w _ _ _ _ _ _ WF'); congruence). cbn [bind].
    match goal with |- exists q, bind ?e _ = Ok q => assert (KQ : exists s2, e = Ok s2 /\ p_stiff (e_params s2) = p_stiff p) end.
    { cbn [e_info set_e_dense]. assert (PS : p_stiff (e_params s) = p_stiff p) by (rewrite Q1; cbn; now rewrite P1).
      destruct (i_fsal (e_info s)); [|eexists; split; [reflexivity|exact PS]].
      pose proof (wf_n _ _ _ _ _ _ WF') as Wn. pose proof (wf_k _ _ _ _ _ _ WF') as (Lk & Lki). destruct (tableau_facts _ _ _ _ (wf_tab _ _ _ _ _ _ WF')) as (T1 & T2 & T3 & T4 & T5).
      cbn [e_nstage set_e_dense e_k]. rewrite Wn, usub_ok by lia. cbn [bind]. rewrite (vget_ok (e_k s) (length b - 1) []), (vget_ok (e_k s) 0 []) by lia. cbn [bind].
      match goal with |- context [for_range 0 ndim ?g ?z] => destruct (for_range_inv (fun _ k0 => length k0 = ndim) g 0 ndim z ltac:(lia)) as (k0 & -> & Lk0) end; [apply Lki; lia| |].
      - intros m k0 Hm Lk0. rewrite (vget_ok (nth (length b - 1) (e_k s) []) m 0%R) by (rewrite Lki; lia). cbn [bind]. rewrite vset_ok by lia. eexists. split; [reflexivity|]. now rewrite upd_length.
      - cbn [bind]. rewrite vset_ok by lia. cbn [bind]. eexists. split; [reflexivity|exact PS]. }
    destruct KQ as (s2 & -> & PS). cbn [bind]. destruct (negb _); [eexists; reflexivity|]. unfold erk_stiffness. rewrite PS, Hs. eexists. reflexivity. }
  destruct AC as ([[[s' w'] x'] y'] & AC).
  exists s0, s, x', y', s'. split; [cbn; now rewrite P1|]. unfold accepted_step. splits; auto; [now exists A, b, c, ee|now exists w|now exists w, w'|].
  exists d. split; [exact ED|]. now rewrite Mo, Q1.
Qed.

Example C52_ex : exists powf s0 s x' y' s' p, p_method p = DoPri8 /\ p_method (e_params s0) = DoPri8 /\ accepted_step 1 late powf s0 workspace_new 0 [0%R] 1 s x' y' s'.
Proof.
  destruct (C58_defaults (fun _ _ => 1%R) ltac:(intros; lra) DoPri8) as (p & Ep & _ & Em).
  destruct (accepted_step_exists 1 late (fun a _ => a) p [0%R] 0 1 late_dim) as (s0 & s & x' & y' & s' & Q & H); auto.
  - intros u z _. eexists. reflexivity.
  - unfold params_new in Ep. apply bind_ok in Ep as ([[a r] n] & _ & Ep). cbv beta iota zeta in Ep. remember (100 * 1000) as big. injection Ep as <-. reflexivity.
  - exists (fun a _ => a), s0, s, x', y', s', p. splits; auto. now rewrite Q.
Qed.

Print Assumptions C52_dopri5.
Print Assumptions C52_dopri5_order4.
Print Assumptions C52_dopri8_end_slope_refuted.

(** * DoPri8: order of the curve *)

(** the scheme actually used: 12 stages, the twelfth again in place of f(x', y'), and 3 extra stages *)
Definition dense8_A : list (list Q) :=
  map (fun r => r ++ repeat 0%Q 4) DORMAND_PRINCE_8_A ++ [nth 11 DORMAND_PRINCE_8_A [] ++ repeat 0%Q 4] ++ map (fun r => r ++ [0%Q]) DORMAND_PRINCE_8_AD.
Definition dense8_C : list Q := DORMAND_PRINCE_8_C ++ [nth 11 DORMAND_PRINCE_8_C 0%Q] ++ DORMAND_PRINCE_8_CD.

(** the weight of stage i at x + theta h *)
Definition dense8_weight (th : R) (i : nat) : R :=
  let b := nth i (Rrow DORMAND_PRINCE_8_B) 0%R in
  let d0 := (if i =? 0 then 1 else 0)%R in let d12 := (if i =? 12 then 1 else 0)%R in
  let D := fun r => nth i (Rrow (nth r DORMAND_PRINCE_8_D [])) 0%R in
  (th * (b + (1 - th) * (d0 - b + th * (2 * b - d0 - d12 + (1 - th) * (D 0%nat + th * (D 1%nat + (1 - th) * (D 2%nat + th * D 3%nat)))))))%R.

Lemma dense8_as_weights ndim x y h k kd th m : h <> 0%R -> length y = ndim -> m < ndim -> length k = 12 -> length kd = 3 ->
  nth m (dense8 ndim x y (new_solution (Rrow DORMAND_PRINCE_8_B) y h k) h k kd (x + th * h)%R) 0%R =
  (nth m y 0 + h * rsum 16 (fun i => dense8_weight th i * nth m (nth i (k ++ [nth 11 k []] ++ kd) []) 0))%R.
Proof.
  intros Hh Ly Hm Lk Lkd. unfold dense8. rewrite nth_tabmap by exact Hm. cbv zeta. unfold new_solution. rewrite nth_tabmap by lia. unfold comb.
  replace (length (Rrow DORMAND_PRINCE_8_B)) with 12 by reflexivity.
  replace ((x + th * h - x) / h)%R with th by (field; exact Hh). unfold septic, quartic, dense8_weight. cbv zeta.
  assert (LB : length (Rrow DORMAND_PRINCE_8_B) = 12) by reflexivity. set (B := Rrow DORMAND_PRINCE_8_B) in *. clearbody B.
  set (E0 := Rrow (nth 0 DORMAND_PRINCE_8_D [])). set (E1 := Rrow (nth 1 DORMAND_PRINCE_8_D [])). set (E2 := Rrow (nth 2 DORMAND_PRINCE_8_D [])).
  set (E3 := Rrow (nth 3 DORMAND_PRINCE_8_D [])). clearbody E0 E1 E2 E3.
  assert (KN : forall j, j < 12 -> nth j (k ++ [nth 11 k []] ++ kd) [] = nth j k []) by (intros j Hj; apply app_nth1; lia).
  assert (KN12 : nth 12 (k ++ [nth 11 k []] ++ kd) [] = nth 11 k []) by (rewrite (app_nth2 k) by lia; rewrite Lk; reflexivity).
  assert (KN13 : nth 13 (k ++ [nth 11 k []] ++ kd) [] = nth 0 kd []) by (rewrite (app_nth2 k) by lia; rewrite Lk; reflexivity).
  assert (KN14 : nth 14 (k ++ [nth 11 k []] ++ kd) [] = nth 1 kd []) by (rewrite (app_nth2 k) by lia; rewrite Lk; reflexivity).
  assert (KN15 : nth 15 (k ++ [nth 11 k []] ++ kd) [] = nth 2 kd []) by (rewrite (app_nth2 k) by lia; rewrite Lk; reflexivity).
  unfold vec in *. set (K := k ++ [nth 11 k []] ++ kd) in *. clearbody K. cbn [rsum Nat.eqb].
  rewrite !(KN 0), !(KN 1), !(KN 2), !(KN 3), !(KN 4), !(KN 5), !(KN 6), !(KN 7), !(KN 8), !(KN 9), !(KN 10), !(KN 11), KN12, KN13, KN14, KN15 by lia.
  rewrite !(nth_overflow B (n := 12)), !(nth_overflow B (n := 13)), !(nth_overflow B (n := 14)), !(nth_overflow B (n := 15)) by lia. ring.
Qed.

Lemma dense8_stages ndim f x y h k kd : length y = ndim -> length k = 12 -> length kd = 3 ->
  is_stages f (Rmat DORMAND_PRINCE_8_A) (Rrow DORMAND_PRINCE_8_C) x y h k ->
  extra_stages ndim f (Rmat DORMAND_PRINCE_8_AD) (Rrow DORMAND_PRINCE_8_CD) x y h k kd ->
  is_stages f (Rmat dense8_A) (Rrow dense8_C) x y h (k ++ [nth 11 k []] ++ kd).
Proof.
  intros Ly Lk Lkd (_ & ST) EX. change (length (Rmat DORMAND_PRINCE_8_A)) with 12 in ST.
  split; [rewrite !app_length, Lk, Lkd; reflexivity|]. change (length (Rmat dense8_A)) with 16. intros i Hi.
  assert (RA : forall i j, i < 12 -> j < 12 -> nth j (nth i (Rmat dense8_A) []) 0%R = nth j (nth i (Rmat DORMAND_PRINCE_8_A) []) 0%R).
  { clear. intros i j Hi Hj. rewrite !Rmat_nth, !Rrow_nth. f_equal. unfold dense8_A. rewrite app_nth1 by (rewrite map_length; exact Hi).
    change (@nil Q) with ((fun r : list Q => r ++ repeat 0%Q 4) []) at 1 || idtac.
    rewrite (nth_indep _ [] ((fun r : list Q => r ++ repeat 0%Q 4) [])) by (rewrite map_length; exact Hi). rewrite (map_nth (fun r : list Q => r ++ repeat 0%Q 4)).
    apply app_nth1. assert (forallb (fun r => length r =? 12) DORMAND_PRINCE_8_A = true) as F by reflexivity. rewrite forallb_forall in F.
    assert (In (nth i DORMAND_PRINCE_8_A []) DORMAND_PRINCE_8_A) as I by (apply nth_In; exact Hi). apply F in I. apply Nat.eqb_eq in I. lia. }
  assert (CA : forall i, i < 12 -> nth i (Rrow dense8_C) 0%R = nth i (Rrow DORMAND_PRINCE_8_C) 0%R).
  { clear. intros i Hi. rewrite !Rrow_nth. f_equal. unfold dense8_C. now apply app_nth1. }
  assert (KN : forall j, j < 12 -> nth j (k ++ [nth 11 k []] ++ kd) [] = nth j k []) by (intros j Hj; apply app_nth1; lia).
  assert (KN12 : nth 12 (k ++ [nth 11 k []] ++ kd) [] = nth 11 k []) by (rewrite (app_nth2 k) by lia; rewrite Lk; reflexivity).
  destruct (Nat.lt_ge_cases i 12) as [L|L].
  - rewrite CA, KN by exact L. rewrite <- (ST i L). f_equal. unfold stage_point. apply map_ext. intros m. f_equal. f_equal. apply rsum_ext. intros j Hj. rewrite RA, KN by lia. reflexivity.
  - destruct (Nat.eq_dec i 12) as [->|N].
    + rewrite KN12. specialize (ST 11 ltac:(lia)). rewrite <- ST.
      replace (nth 12 (Rrow dense8_C) 0%R) with (nth 11 (Rrow DORMAND_PRINCE_8_C) 0%R) by (rewrite !Rrow_nth; reflexivity).
      f_equal. unfold stage_point. apply map_ext. intros m. f_equal. f_equal.
      assert (R12 : nth 12 (Rmat dense8_A) [] = Rrow (nth 11 DORMAND_PRINCE_8_A [] ++ repeat 0%Q 4)) by (rewrite Rmat_nth; reflexivity).
      rewrite R12. match goal with |- rsum 12 ?g = _ => change (rsum 12 g) with (rsum 11 g + g 11%nat)%R end. cbv beta.
      rewrite (Rrow_nth _ 11). replace (nth 11 (nth 11 DORMAND_PRINCE_8_A [] ++ repeat 0%Q 4) 0%Q) with 0%Q by reflexivity. rewrite Q2R0, Rmult_0_l, Rplus_0_r.
      apply rsum_ext. intros j Hj. rewrite KN by lia. rewrite Rmat_nth, !Rrow_nth. rewrite app_nth1 by (change (j < 12); lia). reflexivity.
    + assert (HR : exists r, r < 3 /\ i = 13 + r) by (exists (i - 13); lia). destruct HR as (r & Hr & ->). specialize (EX r Hr).
      replace (nth (13 + r) (k ++ [nth 11 k []] ++ kd) []) with (nth r kd []) by (rewrite (app_nth2 k) by lia; rewrite Lk; replace (13 + r - 12) with (S r) by lia; reflexivity).
      rewrite <- EX. replace (nth (13 + r) (Rrow dense8_C) 0%R) with (nth r (Rrow DORMAND_PRINCE_8_CD) 0%R) by (rewrite !Rrow_nth; destruct r as [|[|[|r]]]; try lia; reflexivity).
      f_equal. unfold stage_point. rewrite Ly. apply map_ext. intros m. f_equal. f_equal. apply rsum_ext. intros j Hj. f_equal.
      rewrite !Rmat_nth, !Rrow_nth. f_equal. replace (nth (13 + r) dense8_A []) with (nth r DORMAND_PRINCE_8_AD [] ++ [0%Q]) by (destruct r as [|[|[|r]]]; try lia; reflexivity).
      rewrite app_nth1; [reflexivity|]. replace (length (nth r DORMAND_PRINCE_8_AD [])) with 15 by (destruct r as [|[|[|r]]]; try lia; reflexivity). lia.
Qed.

(** the curve is the 16-stage Runge-Kutta method with the weights above *)
Theorem C52_dopri8_scheme : forall ndim f powf, keeps_dim ndim f -> forall s0 w0 x y h s x' y' s', accepted_step ndim f powf s0 w0 x y h s x' y' s' ->
  p_method (e_params s0) = DoPri8 -> exists K, is_stages f (Rmat dense8_A) (Rrow dense8_C) x y h K /\
    forall th yo, exists v, erk_dense_output ndim s' (x + th * h)%R x' yo h = Ok v /\
      forall m, m < ndim -> nth m v 0%R = (nth m y 0 + h * rsum 16 (fun i => dense8_weight th i * nth m (nth i K []) 0))%R.
Proof.
  intros ndim f powf FD s0 w0 x y h s x' y' s' H Hm. pose proof H as (_ & Ly & _ & Hh & _).
  destruct (accepted_facts ndim f powf FD _ _ _ _ _ _ _ _ _ H) as (A & b & c & ee & o & o' & n & WF & ST & NW & P1 & P2 & -> & -> & Lw & U & D & F0).
  pose proof (wf_tab _ _ _ _ _ _ WF) as Et. rewrite P1, Hm in Et. injection Et as <- <- <-.
  pose proof (wf_k _ _ _ _ _ _ WF) as VK. change (length DORMAND_PRINCE_8_B) with 12 in VK.
  destruct (update8 ndim f FD o x y h (e_w s) (e_k s) o' n) as (_ & kd & V3 & EX & C); auto; [congruence|].
  exists (e_k s ++ [nth 11 (e_k s) []] ++ kd). split; [apply (dense8_stages ndim); auto; [exact (proj1 VK)|exact (proj1 V3)]|].
  intros th yo. eexists. split; [unfold erk_dense_output; rewrite D; apply C|]. intros m Hm'. rewrite NW at 1.
  apply dense8_as_weights; auto; [exact (proj1 VK)|exact (proj1 V3)].
Qed.

(** its weights at the middle of the step *)
Definition dense8_half : list Q := Eval vm_compute in
  map (fun i => let b := nth i DORMAND_PRINCE_8_B 0%Q in
    let d0 := (if i =? 0 then 1 else 0)%Q in let d12 := (if i =? 12 then 1 else 0)%Q in
    let D := fun r => nth i (nth r DORMAND_PRINCE_8_D []) 0%Q in
    let th := (1 # 2)%Q in
    Qred (th * (b + (1 - th) * (d0 - b + th * (2 * b - d0 - d12 + (1 - th) * (D 0%nat + th * (D 1%nat + (1 - th) * (D 2%nat + th * D 3%nat))))))))%Q (seq 0 16).
Definition DH := Eval vm_compute in common dense8_A dense8_half.
Definition dense8_half64 : list Q := Eval vm_compute in map (fun q => Qred (64 * q)) dense8_half.

Lemma dense8_half_ok i : i < 16 -> Q2R (nth i dense8_half64 0%Q) = (64 * dense8_weight (1 / 2) i)%R.
Proof.
  intros Hi. assert (E : forallb (fun i => let b := nth i DORMAND_PRINCE_8_B 0%Q in
    let d0 := (if i =? 0 then 1 else 0)%Q in let d12 := (if i =? 12 then 1 else 0)%Q in
    let D := fun r => nth i (nth r DORMAND_PRINCE_8_D []) 0%Q in let th := (1 # 2)%Q in
    Qeq_bool (nth i dense8_half64 0%Q) (64 * (th * (b + (1 - th) * (d0 - b + th * (2 * b - d0 - d12 + (1 - th) * (D 0%nat + th * (D 1%nat + (1 - th) * (D 2%nat + th * D 3%nat))))))))) (seq 0 16) = true)
    by (vm_compute; reflexivity).
  rewrite forallb_forall in E. specialize (E i ltac:(apply in_seq; lia)). cbv zeta in E. apply Qeq_bool_iff, Qeq_eqR in E. rewrite E. clear E.
  unfold dense8_weight. cbv zeta. rewrite !Rrow_nth.
  repeat rewrite ?Q2R_mult, ?Q2R_plus, ?Q2R_minus.
  replace (Q2R (1 # 2)) with (1 / 2)%R by (unfold Q2R; cbn; lra). replace (Q2R 64) with 64%R by (unfold Q2R; cbn; lra). replace (Q2R 2) with 2%R by (unfold Q2R; cbn; lra).
  replace (Q2R 1) with 1%R by (unfold Q2R; cbn; lra).
  replace (Q2R (if i =? 0 then 1 else 0)%Q) with (if i =? 0 then 1 else 0)%R by (destruct (i =? 0); unfold Q2R; cbn; lra).
  replace (Q2R (if i =? 12 then 1 else 0)%Q) with (if i =? 12 then 1 else 0)%R by (destruct (i =? 12); unfold Q2R; cbn; lra). reflexivity.
Qed.

Definition tree6 : tree := Node [Node [Node [Node []; Node []; Node []]]].
Lemma dense8_scaled : scaled (common dense8_A dense8_half64) dense8_A dense8_half64 = true.
Proof. vm_compute. reflexivity. Qed.
Lemma dense8_fails : check_tree (common dense8_A dense8_half64) dense8_A dense8_half64 1000 tree6 = false.
Proof. vm_compute. reflexivity. Qed.
Lemma dense8_not D A b t : scaled D A b = true -> check_tree D A b 1000 t = false ->
  ~ (Qabs.Qabs (weight A b t - 1 / inject_Z (density t)) <= 1 / inject_Z 1000)%Q.
Proof. intros S C H. apply andb_true_iff in S as (S1 & S2). apply (check_within D A b S1 S2 1000 t eq_refl) in H. congruence. Qed.

(** because the twelfth stage stands in for f(x', y'), a condition of order 6 fails by more than 10^-5 at mid-step:
    the curve of the eighth-order method is only of order 5 *)
Theorem C52_dopri8_order_refuted : exists t, order t = 6 /\
  (1 / 100000 < Rabs (rsum 16 (fun i => dense8_weight (1 / 2) i * Q2R (stage_weight dense8_A t i)) - (1 / 2) ^ order t / IZR (density t)))%R.
Proof.
  exists tree6. split; [reflexivity|]. pose proof (dense8_not _ _ _ _ dense8_scaled dense8_fails) as N. set (t := tree6) in *.
  change (order t) with 6. assert (Dt : density t = 120%Z) by reflexivity. rewrite Dt in *. clear Dt.
  assert (W : Q2R (weight dense8_A dense8_half64 t) = (64 * rsum 16 (fun i => dense8_weight (1 / 2) i * Q2R (stage_weight dense8_A t i)))%R).
  { unfold weight. change (length dense8_A) with 16. rewrite dot_rsum by reflexivity. rewrite <- rsum_mul. apply rsum_ext. intros i Hi. rewrite dense8_half_ok by exact Hi. rewrite Nat.add_0_l. ring. }
  set (S := rsum 16 _) in *. clearbody S. set (q := weight dense8_A dense8_half64 t) in *. clearbody q. clear t.
  assert (N' : (1 / inject_Z 1000 < Qabs.Qabs (q - 1 / inject_Z 120))%Q) by (apply Qnot_le_lt; exact N). apply Qlt_Rlt in N'.
  assert (QA : forall a, Q2R (Qabs.Qabs a) = Rabs (Q2R a)).
  { clear. intros a. destruct (Qlt_le_dec a 0) as [H|H].
    - rewrite (Qeq_eqR _ _ (Qabs.Qabs_neg a (Qlt_le_weak _ _ H))), Q2R_opp. apply Qlt_Rlt in H. rewrite Q2R0 in H. rewrite Rabs_left; lra.
    - rewrite (Qeq_eqR _ _ (Qabs.Qabs_pos a H)). apply Qle_Rle in H. rewrite Q2R0 in H. rewrite Rabs_pos_eq; lra. }
  rewrite QA, Q2R_minus, W in N'. replace (Q2R (1 / inject_Z 1000)) with (1 / 1000)%R in N' by (unfold Q2R; cbn; lra).
  replace (Q2R (1 / inject_Z 120)) with (1 / 120)%R in N' by (unfold Q2R; cbn; lra).
  replace (S - (1 / 2) ^ 6 / 120)%R with ((64 * S - 1 / 120) / 64)%R by field.
  unfold Rdiv at 2. rewrite Rabs_mult, (Rabs_pos_eq (/ 64)) by lra. lra.
Qed.

Print Assumptions C52_dopri8_scheme.
Print Assumptions C52_dopri8_order_refuted.
