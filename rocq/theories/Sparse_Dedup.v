(** "Sum duplicates" and sorting within a row. *)
From Coq Require Import Permutation Sorting.Sorted.
From Verif Require Import Base Sparse_Model Sparse_Spec Sparse_Lib.

Section P.
Variable T : Type.
Variable zero : T.
Variable add : T -> T -> T.
Notation kv := (nat * T)%type.
Implicit Types (l acc L : list kv).

(** values with key [j] *)
Definition kvals (j : nat) l : list T := map snd (filter (fun a => fst a =? j) l).

Lemma kvals_app j l l' : kvals j (l ++ l') = kvals j l ++ kvals j l'.
Proof. unfold kvals. now rewrite filter_app, map_app. Qed.

Lemma kvals_cons j a l : kvals j (a :: l) = (if fst a =? j then [snd a] else []) ++ kvals j l.
Proof. unfold kvals. cbn [filter]. destruct (fst a =? j); reflexivity. Qed.

Fixpoint pos (j : nat) l : option nat :=
  match l with
  | [] => None
  | a :: t => if fst a =? j then Some 0 else option_map S (pos j t)
  end.

Lemma pos_some j l k : pos j l = Some k -> k < length l /\ fst (nth k l (0, zero)) = j.
Proof.
  revert k; induction l as [|a l IH]; intros k H; cbn [pos] in H; [discriminate|].
  destruct (Nat.eqb_spec (fst a) j) as [E|E].
  - inversion H; subst. simpl. split; [lia|reflexivity].
  - destruct (pos j l) as [k'|]; [|discriminate]. inversion H; subst.
    destruct (IH k' eq_refl). simpl. split; [lia|assumption].
Qed.

Lemma pos_none j l : pos j l = None <-> ~ In j (map fst l).
Proof.
  induction l as [|a l IH]; cbn [pos map]; simpl.
  - tauto.
  - destruct (Nat.eqb_spec (fst a) j) as [E|E].
    + split; [discriminate|]. intros H. elim H. now left.
    + destruct (pos j l); simpl.
      * split; [discriminate|]. intros H. exfalso.
        assert (~ In j (map fst l)) as Hn by tauto. apply IH in Hn. discriminate.
      * split; auto. intros _ [H|H]; [congruence|]. now apply IH in H.
Qed.

Lemma pos_app_some j l l' k : pos j l = Some k -> pos j (l ++ l') = Some k.
Proof.
  revert k; induction l as [|a l IH]; intros k H; cbn [pos app] in *; [discriminate|].
  destruct (fst a =? j); auto.
  destruct (pos j l) as [k'|]; [|discriminate]. now rewrite (IH k' eq_refl).
Qed.

Lemma pos_app_none j l l' :
  pos j l = None -> pos j (l ++ l') = option_map (fun k => length l + k) (pos j l').
Proof.
  induction l as [|a l IH]; intros H; cbn [pos app length] in *.
  - destruct (pos j l'); reflexivity.
  - destruct (fst a =? j); [discriminate|].
    destruct (pos j l); [discriminate|]. rewrite IH by reflexivity.
    destruct (pos j l'); reflexivity.
Qed.

Lemma pos_upd_same j l k x :
  fst (nth k l (0, zero)) = fst x -> pos j (upd l k x) = pos j l.
Proof.
  revert k; induction l as [|a l IH]; intros [|k] H; cbn [pos upd]; auto.
  - cbn [nth] in H. now rewrite H.
  - cbn [nth] in H. now rewrite IH.
Qed.

(** add a (key,value) to an accumulated list *)
Definition merge acc (a : kv) : list kv :=
  match pos (fst a) acc with
  | Some k => upd acc k (fst a, add (snd (nth k acc (0, zero))) (snd a))
  | None => acc ++ [a]
  end.

Definition dedup L : list kv := fold_left merge L [].

Lemma dedup_snoc L a : dedup (L ++ [a]) = merge (dedup L) a.
Proof. unfold dedup. now rewrite fold_left_app. Qed.

Lemma map_fst_upd_same l k x :
  fst (nth k l (0, zero)) = fst x -> map fst (upd l k x) = map fst l.
Proof.
  revert k; induction l as [|a l IH]; intros [|k] H; cbn [upd map]; auto.
  - cbn [nth] in H. now rewrite H.
  - cbn [nth] in H. now rewrite IH.
Qed.

Lemma NoDup_snoc {A} (l : list A) x : NoDup l -> ~ In x l -> NoDup (l ++ [x]).
Proof.
  intros H1 H2. apply NoDup_rev in H1. rewrite <- (rev_involutive (l ++ [x])).
  apply NoDup_rev. rewrite rev_app_distr. simpl. constructor; auto.
  now rewrite <- in_rev.
Qed.

Lemma merge_nodup acc a : NoDup (map fst acc) -> NoDup (map fst (merge acc a)).
Proof.
  intros H. unfold merge. destruct (pos (fst a) acc) as [k|] eqn:E.
  - apply pos_some in E. destruct E as [E1 E2].
    rewrite map_fst_upd_same; [assumption|]. simpl. exact E2.
  - rewrite map_app. simpl. apply NoDup_snoc; auto. now apply pos_none.
Qed.

Lemma dedup_nodup L : NoDup (map fst (dedup L)).
Proof.
  induction L as [|a L IH] using rev_ind; [constructor|].
  rewrite dedup_snoc. now apply merge_nodup.
Qed.

Lemma kvals_none j l : pos j l = None -> kvals j l = [].
Proof.
  induction l as [|a l IH]; intros H; auto.
  rewrite kvals_cons. cbn [pos] in H. destruct (fst a =? j); [discriminate|].
  destruct (pos j l); [discriminate|]. now rewrite IH.
Qed.

Lemma kvals_nodup_some j l k :
  NoDup (map fst l) -> pos j l = Some k -> kvals j l = [snd (nth k l (0, zero))].
Proof.
  revert k; induction l as [|a l IH]; intros k HN H; cbn [pos] in H; [discriminate|].
  inversion HN as [|? ? Hn HN']; subst. rewrite kvals_cons.
  destruct (Nat.eqb_spec (fst a) j) as [E|E].
  - inversion H; subst. cbn [nth app]. rewrite kvals_none; auto. now apply pos_none.
  - destruct (pos j l) as [k'|]; [|discriminate]. inversion H; subst.
    cbn [nth app]. now apply IH.
Qed.

Definition cellv (vs : list T) : list T := match vs with [] => [] | _ => [sum1 T zero add vs] end.

Lemma cellv_snoc vs x :
  cellv (vs ++ [x]) = match cellv vs with [] => [x] | s :: _ => [add s x] end.
Proof.
  destruct vs as [|v vs]; simpl; auto. now rewrite fold_left_app.
Qed.

Lemma kvals_merge j acc a :
  NoDup (map fst acc) ->
  kvals j (merge acc a) =
  if fst a =? j then match kvals j acc with [] => [snd a] | s :: _ => [add s (snd a)] end
  else kvals j acc.
Proof.
  intros HN. unfold merge. destruct (pos (fst a) acc) as [k|] eqn:E.
  - assert (Hp := pos_some _ _ _ E). destruct Hp as [Hk Hf].
    assert (HN' : NoDup (map fst (upd acc k (fst a, add (snd (nth k acc (0, zero))) (snd a))))).
    { rewrite map_fst_upd_same; auto. }
    destruct (Nat.eqb_spec (fst a) j) as [<-|Hne].
    + rewrite (kvals_nodup_some _ acc k HN E).
      rewrite (kvals_nodup_some _ _ k HN').
      * now rewrite nth_upd_eq.
      * rewrite pos_upd_same; auto.
    + destruct (pos j acc) as [k'|] eqn:E'.
      * rewrite (kvals_nodup_some _ acc k' HN E').
        rewrite (kvals_nodup_some _ _ k' HN') by (rewrite pos_upd_same; auto).
        rewrite nth_upd_ne; auto. intros <-. destruct (pos_some _ _ _ E'). congruence.
      * rewrite !kvals_none; auto. rewrite pos_upd_same; auto.
  - rewrite kvals_app, kvals_cons. cbn [kvals filter map]. rewrite app_nil_r.
    destruct (Nat.eqb_spec (fst a) j) as [<-|Hne].
    + rewrite kvals_none by assumption. reflexivity.
    + now rewrite app_nil_r.
Qed.

Lemma kvals_dedup j L : kvals j (dedup L) = cellv (kvals j L).
Proof.
  induction L as [|a L IH] using rev_ind; auto.
  rewrite dedup_snoc, kvals_merge by apply dedup_nodup.
  rewrite kvals_app, kvals_cons. cbn [kvals filter map]. rewrite app_nil_r.
  rewrite IH. destruct (fst a =? j).
  - rewrite cellv_snoc. now destruct (cellv (kvals j L)).
  - now rewrite app_nil_r.
Qed.

Lemma merge_keys_lt n acc a : Forall (fun b => fst b < n) acc -> fst a < n ->
  Forall (fun b => fst b < n) (merge acc a).
Proof.
  intros H1 H2. apply Forall_forall. intros b Hb.
  assert (Hk : In (fst b) (map fst (merge acc a))) by now apply in_map.
  unfold merge in Hk. rewrite Forall_forall in H1.
  destruct (pos (fst a) acc) as [k|] eqn:E.
  - apply pos_some in E. destruct E as [E1 E2].
    rewrite map_fst_upd_same in Hk by assumption.
    apply in_map_iff in Hk. destruct Hk as (c & <- & Hc). auto.
  - rewrite map_app in Hk. apply in_app_or in Hk. destruct Hk as [Hk|[Hk|[]]].
    + apply in_map_iff in Hk. destruct Hk as (c & <- & Hc). auto.
    + now rewrite <- Hk.
Qed.

Lemma dedup_keys_lt n L : Forall (fun b => fst b < n) L -> Forall (fun b => fst b < n) (dedup L).
Proof.
  induction L as [|a L IH] using rev_ind; intros H; [constructor|].
  apply Forall_app in H. destruct H as [H1 H2]. inversion H2; subst.
  rewrite dedup_snoc. apply merge_keys_lt; auto.
Qed.

Lemma merge_length_le acc a : length acc <= length (merge acc a) <= S (length acc).
Proof.
  unfold merge. destruct (pos (fst a) acc); rewrite ?upd_length, ?app_length; simpl; lia.
Qed.

Lemma dedup_length L : length (dedup L) <= length L.
Proof.
  induction L as [|a L IH] using rev_ind; auto.
  rewrite dedup_snoc, app_length. simpl.
  assert (H := merge_length_le (dedup L) a). lia.
Qed.

(** ** strictly increasing keys *)

Lemma sinc_flat l : forall n lo, increasing_from lo (map fst l) -> Forall (fun a => fst a < lo + n) l ->
  l = flat_map (fun j => map (pair j) (kvals j l)) (seq lo n).
Proof.
  assert (Hlt : forall l0 lo j, increasing_from lo (map fst l0) -> j < lo -> kvals j l0 = []).
  { induction l0 as [|a t IH]; intros lo j H Hj; auto. cbn [map increasing_from] in H.
    destruct H as [H1 H2]. rewrite kvals_cons.
    destruct (Nat.eqb_spec (fst a) j); [lia|]. rewrite (IH (S (fst a)) j); auto. lia. }
  intros n. revert l. induction n as [|n IH]; intros l lo H HF.
  - destruct l as [|a t]; auto. inversion HF; subst. cbn in H. lia.
  - cbn [seq flat_map]. destruct l as [|a t].
    { clear. simpl. induction (seq (S lo) n); auto. }
    cbn [map increasing_from] in H. destruct H as [H1 H2].
    inversion HF as [|? ? Ha HF']; subst.
    destruct (Nat.eq_dec (fst a) lo) as [E|E].
    + rewrite kvals_cons, E, Nat.eqb_refl. rewrite (Hlt t (S (fst a)) lo) by (auto; lia).
      cbn [map app].
      assert (Hd : a = (lo, snd a)) by (destruct a; simpl in *; congruence).
      rewrite <- Hd. f_equal.
      rewrite (IH t (S lo)) at 1.
      * apply flat_map_ext_in. intros j Hj. apply in_seq in Hj.
        rewrite kvals_cons. destruct (Nat.eqb_spec (fst a) j); [lia|]. reflexivity.
      * now rewrite <- E.
      * eapply Forall_impl; [|exact HF']. simpl. intros; lia.
    + assert (H3 : increasing_from (S lo) (map fst (a :: t))).
      { cbn [map increasing_from]. split; [lia|assumption]. }
      rewrite (Hlt (a :: t) (S lo) lo) by (auto; lia). cbn [map app].
      apply IH; auto. eapply Forall_impl; [|exact HF]. simpl. intros; lia.
Qed.

(** ** sort_by_key *)

Lemma insert_perm a l : Permutation (a :: l) (insert_by_key T a l).
Proof.
  induction l as [|b l IH]; cbn [insert_by_key]; auto.
  destruct (fst a <=? fst b); auto.
  eapply perm_trans; [apply perm_swap|]. now constructor.
Qed.

Lemma sort_perm l : Permutation l (sort_by_key T l).
Proof.
  induction l as [|a l IH]; cbn [sort_by_key]; auto.
  eapply perm_trans; [|apply insert_perm]. now constructor.
Qed.

Definition key_le (a b : kv) : Prop := fst a <= fst b.

Lemma insert_sorted a l : StronglySorted key_le l -> StronglySorted key_le (insert_by_key T a l).
Proof.
  induction l as [|b l IH]; intros H; cbn [insert_by_key].
  - repeat constructor.
  - inversion H as [|? ? Hs Hf]; subst.
    destruct (Nat.leb_spec (fst a) (fst b)) as [Hle|Hgt].
    + constructor; auto. constructor; auto.
      eapply Forall_impl; [|exact Hf]. unfold key_le. intros; simpl in *; lia.
    + constructor; auto.
      eapply Permutation_Forall; [apply insert_perm|]. constructor; auto. unfold key_le. lia.
Qed.

Lemma sort_sorted l : StronglySorted key_le (sort_by_key T l).
Proof. induction l; cbn [sort_by_key]; [constructor|]. now apply insert_sorted. Qed.

Lemma sorted_nodup_increasing l :
  StronglySorted key_le l -> NoDup (map fst l) -> forall lo, Forall (fun a => lo <= fst a) l ->
  increasing_from lo (map fst l).
Proof.
  induction l as [|a l IH]; intros Hs HN lo HF; cbn [map increasing_from]; auto.
  inversion Hs as [|? ? Hs' Hf]; subst. inversion HN as [|? ? Hn HN']; subst.
  inversion HF; subst. split; auto. apply IH; auto.
  apply Forall_forall. intros b Hb. rewrite Forall_forall in Hf. specialize (Hf b Hb).
  unfold key_le in Hf. assert (fst a <> fst b).
  { intros E. apply Hn. rewrite E. now apply in_map. }
  lia.
Qed.

Lemma kvals_perm_nodup j l l' :
  Permutation l l' -> NoDup (map fst l) -> kvals j l = kvals j l'.
Proof.
  intros HP HN.
  assert (HN' : NoDup (map fst l')).
  { eapply Permutation_NoDup; [|exact HN]. now apply Permutation_map. }
  assert (HP' : Permutation (kvals j l) (kvals j l')).
  { unfold kvals. apply Permutation_map. clear HN HN'.
    induction HP; cbn [filter]; auto.
    - destruct (fst x =? j); auto.
    - destruct (fst x =? j), (fst y =? j); auto. constructor.
    - eapply perm_trans; eauto. }
  destruct (pos j l) as [k|] eqn:E.
  - rewrite (kvals_nodup_some j l k HN E) in *. apply Permutation_length_1_inv in HP'. auto.
  - rewrite (kvals_none j l E) in *. apply Permutation_nil in HP'. auto.
Qed.

Lemma sort_dedup_eq L n :
  Forall (fun a => fst a < n) L ->
  sort_by_key T (dedup L) = flat_map (fun j => map (pair j) (cellv (kvals j L))) (seq 0 n).
Proof.
  intros HF.
  assert (HP := sort_perm (dedup L)).
  assert (HN := dedup_nodup L).
  assert (HN' : NoDup (map fst (sort_by_key T (dedup L)))).
  { eapply Permutation_NoDup; [|exact HN]. now apply Permutation_map. }
  rewrite (sinc_flat (sort_by_key T (dedup L)) n 0) at 1.
  - apply flat_map_ext_in. intros j _. f_equal.
    rewrite <- (kvals_perm_nodup j _ _ HP HN). apply kvals_dedup.
  - apply sorted_nodup_increasing; auto using sort_sorted.
    apply Forall_forall. intros; lia.
  - eapply Permutation_Forall; [exact HP|]. now apply dedup_keys_lt.
Qed.

(** ** the inner loop *)

Lemma dedup_row_jx_ok p1 p2 (rjx : list kv) (w : list Z) ncol :
  p1 <= p2 -> p2 <= length rjx -> ncol <= length w ->
  Forall (fun a => fst a < ncol) (seg rjx p1 p2) ->
  (forall j, j < ncol -> (nth j w 0 < Z.of_nat p1)%Z) ->
  exists rjx' w' dest,
    dedup_row_jx T add p1 p2 rjx w = Ok (rjx', w', dest) /\
    dest = p1 + length (dedup (seg rjx p1 p2)) /\ dest <= p2 /\
    length rjx' = length rjx /\ length w' = length w /\
    seg rjx' p1 dest = dedup (seg rjx p1 p2) /\
    (forall k d, k < p1 \/ p2 <= k -> nth k rjx' d = nth k rjx d) /\
    (forall j, j < ncol -> (nth j w' 0 < Z.of_nat p2)%Z).
Proof.
  intros H12 H2 Hw HF Hw0. unfold dedup_row_jx.
  set (d0 := (0, zero) : kv).
  destruct (for_range_inv (fun p (st : list kv * list Z * nat) =>
    let '(r, v, dest) := st in
    let acc := dedup (seg rjx p1 p) in
    length r = length rjx /\ length v = length w /\ dest = p1 + length acc /\ dest <= p /\
    seg r p1 dest = acc /\
    (forall k d, k < p1 \/ p <= k -> nth k r d = nth k rjx d) /\
    (forall j, j < ncol -> match pos j acc with
                           | Some k => nth j v 0%Z = Z.of_nat (p1 + k)
                           | None => (nth j v 0 < Z.of_nat p1)%Z
                           end))
   (fun p st =>
    let '(rjx, w, dest) := st in
    '(j, x) <- vget rjx p ;;
    wj <- vget w j ;;
    if (Z.of_nat p1 <=? wj)%Z then
      pj <- as_index wj ;;
      '(j', y) <- vget rjx pj ;;
      rjx <- vset rjx pj (j', add y x) ;;
      Ok (rjx, w, dest)
    else
      w <- vset w j (Z.of_nat dest) ;;
      if negb (dest =? p) then
        rjx <- vset rjx dest (j, x) ;;
        Ok (rjx, w, dest + 1)
      else Ok (rjx, w, dest + 1)) p1 p2 (rjx, w, p1)) as ([[r v] dest] & E & HI).
  - assumption.
  - rewrite seg_nil by lia. cbn [dedup fold_left length pos]. splits; auto; try lia.
  - intros p [[r v] dest] Hp (Hlr & Hlv & Hd & Hdp & Hseg & Hout & Hpos).
    set (acc := dedup (seg rjx p1 p)) in *.
    assert (Hsn : seg rjx p1 (S p) = seg rjx p1 p ++ [nth p rjx d0]) by (apply seg_snoc; lia).
    assert (Hacc' : dedup (seg rjx p1 (S p)) = merge acc (nth p rjx d0)).
    { rewrite Hsn. apply dedup_snoc. }
    rewrite (vget_ok _ _ d0) by lia. rewrite (Hout p d0) by lia. cbn [bind].
    destruct (nth p rjx d0) as [j x] eqn:Ejx.
    assert (Hj : j < ncol).
    { rewrite Forall_forall in HF.
      assert (Hin : In (j, x) (seg rjx p1 p2)).
      { rewrite <- Ejx. replace p with (p1 + (p - p1)) by lia.
        rewrite <- (nth_seg rjx p1 p2) by lia. apply nth_In. rewrite seg_length by lia. lia. }
      apply (HF _ Hin). }
    rewrite (vget_ok _ _ 0%Z) by lia. cbn [bind].
    assert (Hpj := Hpos j Hj).
    destruct (pos j acc) as [k|] eqn:Ek.
    + rewrite Hpj. destruct (Z.leb_spec (Z.of_nat p1) (Z.of_nat (p1 + k))) as [_|]; [|lia].
      unfold as_index. destruct (Z.ltb_spec (Z.of_nat (p1 + k)) 0); [lia|]. cbn [bind].
      rewrite Nat2Z.id.
      destruct (pos_some _ _ _ Ek) as [Hk Hkf].
      rewrite (vget_ok _ _ d0) by lia. cbn [bind].
      assert (En : nth (p1 + k) r d0 = nth k acc d0).
      { rewrite <- Hseg. rewrite nth_seg by lia. reflexivity. }
      rewrite En. destruct (nth k acc d0) as [j' y] eqn:Ey.
      assert (j' = j) as -> by (unfold d0 in Ey; rewrite Ey in Hkf; exact Hkf).
      rewrite vset_ok by lia. cbn [bind].
      eexists; split; [reflexivity|].
      assert (Hm : merge acc (j, x) = upd acc k (j, add y x)).
      { unfold merge. cbn [fst snd]. rewrite Ek. unfold d0 in Ey. rewrite Ey. reflexivity. }
      rewrite Hacc', Hm, !upd_length. splits; auto; try lia.
      * rewrite seg_upd_inside by lia. rewrite Hseg. f_equal. lia.
      * intros q d Hq. rewrite nth_upd_ne by lia. apply Hout. lia.
      * intros j1 Hj1. rewrite pos_upd_same.
        -- now apply Hpos.
        -- unfold d0 in Ey. rewrite Ey. reflexivity.
    + destruct (Z.leb_spec (Z.of_nat p1) (nth j v 0%Z)) as [|_]; [lia|].
      rewrite vset_ok by lia. cbn [bind].
      assert (Hm : merge acc (j, x) = acc ++ [(j, x)]).
      { unfold merge. cbn [fst snd]. now rewrite Ek. }
      assert (Hposn : forall j1, j1 < ncol ->
         match pos j1 (acc ++ [(j, x)]) with
         | Some k => nth j1 (upd v j (Z.of_nat dest)) 0%Z = Z.of_nat (p1 + k)
         | None => (nth j1 (upd v j (Z.of_nat dest)) 0 < Z.of_nat p1)%Z
         end).
      { intros j1 Hj1. specialize (Hpos j1 Hj1). rewrite nth_upd by lia.
        destruct (Nat.eqb_spec j1 j) as [->|Hne].
        - rewrite pos_app_none by assumption. cbn [pos fst option_map].
          rewrite Nat.eqb_refl. cbn [option_map]. lia.
        - destruct (pos j1 acc) as [k1|] eqn:Ek1.
          + now rewrite (pos_app_some _ _ _ _ Ek1).
          + rewrite pos_app_none by assumption. cbn [pos fst].
            destruct (Nat.eqb_spec j j1); [lia|]. cbn [option_map]. assumption. }
      destruct (Nat.eqb_spec dest p) as [Edp|Edp]; cbn [negb].
      * eexists; split; [reflexivity|]. rewrite Hacc', Hm, app_length, upd_length. cbn [length].
        splits; auto; try lia.
        -- subst p. rewrite Nat.add_1_r, (seg_snoc _ _ _ d0) by lia.
           rewrite Hseg, Hout by lia. now rewrite Ejx.
        -- intros q d Hq. apply Hout. lia.
      * rewrite vset_ok by lia. cbn [bind].
        eexists; split; [reflexivity|]. rewrite Hacc', Hm, app_length, !upd_length. cbn [length].
        splits; auto; try lia.
        -- rewrite Nat.add_1_r, seg_upd_snoc by lia. now rewrite Hseg.
        -- intros q d Hq. rewrite nth_upd_ne by lia. apply Hout. lia.
  - rewrite E. destruct HI as (Hlr & Hlv & Hd & Hdp & Hseg & Hout & Hpos).
    exists r, v, dest. splits; auto.
    intros j Hj. specialize (Hpos j Hj).
    destruct (pos j (dedup (seg rjx p1 p2))) as [k|] eqn:Ek; [|lia].
    destruct (pos_some _ _ _ Ek). lia.
Qed.

End P.

Arguments kvals {T}.
