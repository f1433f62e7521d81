(** Theorems about the table reader and the matrix text reader: C80, C81. *)
From Coq Require Import Ascii.
From Verif Require Import Base Dense_Model Dense_Proofs Dense_Thm MM_Model Table_Model.
From Verif Require MM_Thm.
Local Open Scope string_scope.
Local Open Scope list_scope.
Local Open Scope nat_scope.

(* ------------------------------------------------------------------ *)
(** * Specification *)

(** the cells of a line: the words before the first word that starts with a hash *)
Fixpoint before_hash (ws : list string) : list string :=
  match ws with
  | [] => []
  | w :: r => if starts_hash w then [] else w :: before_hash r
  end.
Definition cells (line : string) : list string := before_hash (split_ws line).
(** the rows of a file: the lines that hold at least one cell *)
Definition rows (text : string) : list (list string) :=
  filter (fun r => negb (length r =? 0)) (map cells (lines text)).

Section Spec.
Variable T : Type.
Variable parse : string -> option T.
Variable zero : T.

(** the header is accepted: it is a prefix of the given labels or, without labels, has no duplicates *)
Definition header_ok (labels : option (list string)) (h : list string) : Prop :=
  match labels with
  | Some ls => exists more, ls = h ++ more
  | None => NoDup h
  end.
(** a row is accepted: it has [n] cells and all of them can be parsed *)
Definition row_ok (n : nat) (r : list string) : Prop :=
  length r = n /\ forall s, In s r -> parse s <> None.

(** the values of a row that lie under the label [lbl] *)
Fixpoint under (lbl : string) (h r : list string) : list T :=
  match h, r with
  | l :: h', s :: r' =>
      (if String.eqb l lbl then match parse s with Some v => [v] | None => [] end else []) ++ under lbl h' r'
  | _, _ => []
  end.

(* ------------------------------------------------------------------ *)
(** * Lemmas *)

Lemma no_data_iff line : no_data line = true <-> cells line = [].
Proof.
  unfold no_data, cells. rewrite <- (MM_Thm.split_trim line).
  assert (Q : forall s, match trim_start s with EmptyString => True | String c _ => is_ws c = false end).
  { induction s as [|c t IH]; simpl; auto. destruct (is_ws c) eqn:E; auto. }
  specialize (Q line). destruct (trim_start line) as [|c t]; [now split|].
  replace (String.eqb (String c t) "") with false by reflexivity. rewrite orb_false_r.
  assert (W : forall s acc, exists w rest, split_aux (String c acc) s = String c w :: rest).
  { induction s as [|d s IH]; intros acc; simpl; [eauto|]. destruct (is_ws d); [eauto|]. apply IH. }
  unfold split_ws. cbn [split_aux]. rewrite Q.
  destruct (W t EmptyString) as (w & rest & E). change (snoc "" c) with (String c EmptyString). rewrite E.
  cbn [before_hash starts_hash]. destruct (Ascii.eqb c "#"%char); split; auto; discriminate.
Qed.
Lemma no_data_false line : no_data line = false -> cells line <> [].
Proof. intros H E. apply no_data_iff in E. congruence. Qed.

Lemma tab_get_push t l v lbl :
  tab_get T (tab_push T t l v) lbl =
  if String.eqb l lbl then Some (match tab_get T t l with Some c => c | None => [] end ++ [v]) else tab_get T t lbl.
Proof.
  induction t as [|[k c] t IH]; cbn [tab_push tab_get].
  - destruct (String.eqb l lbl); reflexivity.
  - destruct (String.eqb_spec k l) as [->|N]; cbn [tab_get].
    + destruct (String.eqb l lbl); reflexivity.
    + rewrite IH. destruct (String.eqb_spec l lbl) as [->|N2]; [|reflexivity].
      destruct (String.eqb_spec k lbl); [congruence | reflexivity].
Qed.

(** what was stored under a label, followed by new values *)
Definition more (o : option (list T)) (l : list T) : option (list T) :=
  match l with [] => o | _ => Some (match o with Some c => c | None => [] end ++ l) end.
Lemma more_app o a b : more o (a ++ b) = more (more o a) b.
Proof. destruct a as [|x a], b as [|y b]; cbn; rewrite ?app_nil_r; auto. destruct o; cbn; now rewrite <- ?app_assoc. Qed.

Lemma header_cell_cases labels hdr s : header_ok labels hdr ->
  (header_ok labels (hdr ++ [s]) /\ header_cell labels hdr (length hdr) s = Ok (hdr ++ [s])) \/
  (~ header_ok labels (hdr ++ [s]) /\ exists e, header_cell labels hdr (length hdr) s = Err e).
Proof.
  intros H. unfold header_cell. destruct labels as [ls|]; cbn [header_ok] in *.
  - destruct H as (m & ->). rewrite app_length.
    destruct m as [|x m].
    + right. split; [intros (m2 & E); apply (f_equal (@length string)) in E; rewrite !app_length in E; cbn in E; lia|].
      cbn [length]. rewrite (proj2 (Nat.leb_le _ _)) by lia. cbn [bind]. eauto.
    + rewrite (proj2 (Nat.leb_gt _ _)) by (cbn; lia).
      rewrite (vget_ok _ _ ""%string) by (rewrite app_length; cbn; lia).
      rewrite app_nth2, Nat.sub_diag by lia. cbn [nth bind].
      destruct (String.eqb_spec s x) as [->|N]; cbn [negb bind].
      * left. split; [exists m; now rewrite <- app_assoc | reflexivity].
      * right. split; [|eauto]. intros (m2 & E). rewrite <- app_assoc in E. apply app_inv_head in E. cbn in E. congruence.
  - destruct (existsb (String.eqb s) hdr) eqn:E; cbn [bind].
    + right. split; [|eauto]. intros N. apply existsb_exists in E. destruct E as (x & Hx & Hs). apply String.eqb_eq in Hs. subst x.
      apply NoDup_remove_2 in N. rewrite app_nil_r in N. contradiction.
    + left. split; [|reflexivity]. apply NoDup_app_remove_r in H || idtac.
      assert (A : ~ In s hdr). { intros I. rewrite (proj2 (existsb_exists _ _)) in E; [discriminate|]. exists s. split; auto. apply String.eqb_refl. }
      clear E. induction hdr as [|y hdr IH]; cbn; [constructor; auto; constructor|].
      inversion H; subst. constructor.
      * intros I. apply in_app_or in I. destruct I as [I|[<-|[]]]; [contradiction | apply A; now left].
      * apply IH; auto. intros I. apply A. now right.
Qed.

Lemma header_ok_prefix labels h r : header_ok labels (h ++ r) -> header_ok labels h.
Proof.
  destruct labels as [ls|]; cbn [header_ok].
  - intros (m & ->). exists (r ++ m). now rewrite app_assoc.
  - intros H. induction h as [|x h IH]; [constructor|]. cbn in H. inversion H; subst. constructor; auto. intros I. apply H2. apply in_or_app. auto.
Qed.

Lemma header_row labels tab toks : forall hdr, header_ok labels hdr ->
  (header_ok labels (hdr ++ before_hash toks) /\
   table_cols T parse labels true hdr tab (length hdr) toks = Ok (hdr ++ before_hash toks, tab, length (hdr ++ before_hash toks))) \/
  (~ header_ok labels (hdr ++ before_hash toks) /\ exists e, table_cols T parse labels true hdr tab (length hdr) toks = Err e).
Proof.
  induction toks as [|s toks IH]; intros hdr H; cbn [before_hash table_cols].
  - rewrite app_nil_r. auto.
  - destruct (starts_hash s); [rewrite app_nil_r; auto|].
    destruct (header_cell_cases labels hdr s H) as [(H1 & E)|(H1 & e & E)]; rewrite E; cbn [bind].
    + replace (length hdr + 1) with (length (hdr ++ [s])) by (rewrite app_length; reflexivity).
      destruct (IH _ H1) as [(H2 & E2)|(H2 & e & E2)]; rewrite <- app_assoc in *; cbn [app] in *; eauto.
    + right. split; eauto. intros H2. apply H1. apply (header_ok_prefix _ _ (before_hash toks)). now rewrite <- app_assoc.
Qed.

Lemma body_row labels hdr toks : forall tab ci, ci <= length hdr ->
  (exists tab', row_ok (length (before_hash toks)) (before_hash toks) /\ ci + length (before_hash toks) <= length hdr /\
   table_cols T parse labels false hdr tab ci toks = Ok (hdr, tab', ci + length (before_hash toks)) /\
   forall lbl, tab_get T tab' lbl = more (tab_get T tab lbl) (under lbl (skipn ci hdr) (before_hash toks))) \/
  ((~ row_ok (length (before_hash toks)) (before_hash toks) \/ length hdr < ci + length (before_hash toks)) /\
   exists e, table_cols T parse labels false hdr tab ci toks = Err e).
Proof.
  induction toks as [|s toks IH]; intros tab ci Hc; cbn [before_hash table_cols].
  - left. exists tab. cbn [length]. rewrite Nat.add_0_r. splits; auto; [split; [auto | intros ? []] |].
    intros. destruct (skipn ci hdr); reflexivity.
  - destruct (starts_hash s).
    + left. exists tab. cbn [length]. rewrite Nat.add_0_r. splits; auto; [split; [auto | intros ? []] |].
      intros. destruct (skipn ci hdr); reflexivity.
    + unfold body_cell. destruct (Nat.leb_spec (length hdr) ci) as [L|L]; cbn [bind].
      { right. split; [right; cbn [length]; lia | eauto]. }
      destruct (parse s) as [v|] eqn:P; cbn [bind].
      2:{ right. split; [|eauto]. left. intros (_ & Q). apply (Q s); [now left | exact P]. }
      rewrite (vget_ok _ _ ""%string) by lia. cbn [bind].
      destruct (IH (tab_push T tab (nth ci hdr ""%string) v) (ci + 1)) as [(tab' & R & L2 & E & G)|(R & e & E)]; [lia| |].
      * left. exists tab'. rewrite E. cbn [length]. splits.
        -- split; [reflexivity|]. intros x [<-|I]; [congruence|]. now apply R.
        -- lia.
        -- do 2 f_equal. lia.
        -- intros lbl. rewrite G, tab_get_push.
           assert (K : skipn ci hdr = nth ci hdr ""%string :: skipn (ci + 1) hdr).
           { clear - L. revert ci L. induction hdr as [|x hdr IH]; intros [|ci] L; cbn in *; try lia; auto.
             rewrite (IH ci) at 1 by lia. reflexivity. }
           rewrite K. cbn [under]. rewrite P.
           destruct (String.eqb_spec (nth ci hdr ""%string) lbl) as [->|N]; [|reflexivity].
           rewrite more_app. reflexivity.
      * right. rewrite E. split; [|eauto]. cbn [length]. destruct R as [R|R]; [left|right; lia].
        intros (_ & Q). apply R. split; auto. intros x I. apply Q. now right.
Qed.

Lemma body_lines labels hdr n ls : n = length hdr -> forall tab,
  (exists tab', table_lines T parse labels false n hdr tab ls = Ok tab' /\
   (forall r, In r (filter (fun r => negb (length r =? 0)) (map cells ls)) -> row_ok n r) /\
   forall lbl, tab_get T tab' lbl = more (tab_get T tab lbl) (flat_map (under lbl hdr) (filter (fun r => negb (length r =? 0)) (map cells ls)))) \/
  ((exists e, table_lines T parse labels false n hdr tab ls = Err e) /\
   exists r, In r (filter (fun r => negb (length r =? 0)) (map cells ls)) /\ ~ row_ok n r).
Proof.
  intros Hn. induction ls as [|line ls IH]; intros tab; cbn [table_lines map filter].
  - left. exists tab. splits; auto. intros ? [].
  - destruct (no_data line) eqn:N.
    + apply no_data_iff in N. rewrite N. cbn [length Nat.eqb negb]. apply IH.
    + assert (K : cells line <> []) by (now apply no_data_false).
      replace (negb (length (cells line) =? 0)) with true by (destruct (cells line); [congruence | reflexivity]).
      rewrite MM_Thm.split_trim. change (before_hash (split_ws line)) with (cells line) in *.
      destruct (body_row labels hdr (split_ws line) tab 0 (Nat.le_0_l _)) as [(tab' & R & L & E & G)|(R & e & E)];
        change (before_hash (split_ws line)) with (cells line) in *; rewrite E; cbn [bind].
      * cbn [Nat.add skipn] in *.
        destruct (Nat.eqb_spec (length (cells line)) n) as [EQ|NE]; cbn [negb].
        -- destruct (IH tab') as [(t2 & E2 & R2 & G2)|(E2 & r & I & R2)].
           ++ left. exists t2. splits; auto.
              ** intros r [<-|I]; [|auto]. split; [exact EQ | apply R].
              ** intros lbl. cbn [flat_map]. rewrite G2, G, more_app. reflexivity.
           ++ right. split; auto. exists r. split; auto. now right.
        -- right. split; [eauto|]. exists (cells line). split; [now left|]. intros (Q & _). contradiction.
      * right. split; [eauto|]. exists (cells line). split; [now left|]. intros (Q1 & Q2).
        destruct R as [R|R]; [apply R; split; auto | lia].
Qed.

(** the file is a table: its header is accepted and all the other rows have a value for each label *)
Definition is_table (labels : option (list string)) (text : string) : Prop :=
  match rows text with
  | [] => True
  | h :: body => header_ok labels h /\ forall r, In r body -> row_ok (length h) r
  end.

Lemma read_cases labels text :
  (exists tab, read_table T parse labels text = Ok tab /\ is_table labels text /\
   forall lbl, tab_get T tab lbl = more None (match rows text with [] => [] | h :: body => flat_map (under lbl h) body end)) \/
  ((exists e, read_table T parse labels text = Err e) /\ ~ is_table labels text).
Proof.
  unfold read_table, is_table, rows. induction (lines text) as [|line ls IH]; cbn [table_lines map filter].
  - left. exists []. splits; auto.
  - destruct (no_data line) eqn:N.
    + apply no_data_iff in N. rewrite N. cbn [length Nat.eqb negb]. exact IH.
    + clear IH. assert (K : cells line <> []) by (now apply no_data_false).
      replace (negb (length (cells line) =? 0)) with true by (destruct (cells line); [congruence | reflexivity]).
      rewrite MM_Thm.split_trim.
      assert (H0 : header_ok labels []) by (destruct labels; cbn; [eauto | constructor]).
      destruct (header_row labels [] (split_ws line) [] H0) as [(H1 & E)|(H1 & e & E)]; cbn [app length] in *;
        change (before_hash (split_ws line)) with (cells line) in *; rewrite E; cbn [bind].
      * destruct (body_lines labels (cells line) (length (cells line)) ls eq_refl []) as [(t & E2 & R & G)|((e & E2) & r & I & R)].
        -- left. exists t. splits; auto.
        -- right. split; [eauto|]. intros (_ & Q). exact (R (Q r I)).
      * right. split; [eauto|]. intros (Q & _). contradiction.
Qed.

(* ------------------------------------------------------------------ *)
(** * C80: the table reader *)

(** a file is read if and only if it is a table; otherwise an error is returned, and nothing panics *)
Theorem C80_accepted labels text :
  ((exists tab, read_table T parse labels text = Ok tab) <-> is_table labels text) /\
  ((exists e, read_table T parse labels text = Err e) <-> ~ is_table labels text).
Proof.
  destruct (read_cases labels text) as [(t & E & H & _)|((e & E) & H)]; rewrite E; split; split; intros; eauto; try contradiction; try easy.
  - destruct H0 as (? & ?). discriminate.
  - destruct H0 as (? & ?). discriminate.
Qed.

(** each column holds, in the order of the rows, the values below its label, and there are no other keys *)
Theorem C80_columns labels text tab h body : read_table T parse labels text = Ok tab -> rows text = h :: body -> NoDup h ->
  (forall j, j < length h -> body <> [] ->
     exists col, tab_get T tab (nth j h ""%string) = Some col /\ map Some col = map (fun r => parse (nth j r ""%string)) body) /\
  (forall lbl, ~ In lbl h \/ body = [] -> tab_get T tab lbl = None).
Proof.
  intros E R ND. destruct (read_cases labels text) as [(t & E2 & H & G)|((e & E2) & _)]; rewrite E in E2; [|discriminate].
  injection E2 as <-. rewrite R in G. unfold is_table in H. rewrite R in H. destruct H as (_ & HR).
  split.
  - intros j Hj HB. rewrite G. exists (flat_map (under (nth j h ""%string) h) body).
    assert (U : forall r, In r body -> exists v, under (nth j h ""%string) h r = [v] /\ parse (nth j r ""%string) = Some v).
    { intros r I. destruct (HR r I) as (HL & HP). clear - ND Hj HL HP. revert j r Hj HL HP.
      induction h as [|l h IH]; intros j [|s r] Hj HL HP; cbn in Hj, HL; try lia.
      inversion ND as [|? ? NI ND']; subst. cbn [under]. destruct j as [|j]; cbn [nth].
      - rewrite String.eqb_refl. destruct (parse s) as [v|] eqn:P; [|exfalso; apply (HP s); [now left | exact P]].
        exists v. split; [|reflexivity].
        assert (Z : forall h r, ~ In l h -> under l h r = []).
        { clear. induction h as [|x h IH]; intros [|s r] N; cbn [under]; auto. destruct (String.eqb_spec x l) as [->|]; [exfalso; apply N; now left|].
          apply IH. intros I. apply N. now right. }
        rewrite Z by auto. reflexivity.
      - destruct (String.eqb_spec l (nth j h ""%string)) as [->|].
        + exfalso. apply NI. apply nth_In. lia.
        + cbn [app]. apply IH; auto; try lia. intros x I. apply HP. now right. }
    assert (M : map Some (flat_map (under (nth j h ""%string) h) body) = map (fun r => parse (nth j r ""%string)) body).
    { clear - U. induction body as [|r body IH]; [reflexivity|]. cbn [flat_map map]. destruct (U r) as (v & E1 & E2); [now left|].
      rewrite E1, E2. cbn [app map]. f_equal. apply IH. intros x I. apply U. now right. }
    split; [|exact M].
    destruct body as [|r body]; [congruence|]. destruct (flat_map _ (r :: body)) eqn:F; [discriminate M | reflexivity].
  - intros lbl [N|N]; rewrite G; [|now rewrite N].
    assert (Z : forall h r, ~ In lbl h -> under lbl h r = []).
    { clear. induction h as [|x h IH]; intros [|s r] N; cbn [under]; auto. destruct (String.eqb_spec x lbl) as [->|]; [exfalso; apply N; now left|].
      apply IH. intros I. apply N. now right. }
    assert (Y : flat_map (under lbl h) body = []).
    { clear - Z N. induction body as [|r b IH]; [reflexivity|]. cbn. now rewrite Z, IH. }
    now rewrite Y.
Qed.

(** a header without rows gives no keys at all *)
Theorem C80_empty labels text tab : read_table T parse labels text = Ok tab -> length (rows text) <= 1 -> forall lbl, tab_get T tab lbl = None.
Proof.
  intros E L lbl. destruct (read_cases labels text) as [(t & E2 & H & G)|((e & E2) & _)]; rewrite E in E2; [|discriminate].
  injection E2 as <-. rewrite G. destruct (rows text) as [|h [|r b]]; cbn in *; auto; lia.
Qed.

(* ------------------------------------------------------------------ *)
(** * C81: the matrix reader *)

Lemma text_row toks : forall data ci,
  (exists vs, map Some vs = map parse (before_hash toks) /\
     text_cols T parse data ci toks = Ok (data ++ vs, ci + length (before_hash toks))) \/
  ((exists e, text_cols T parse data ci toks = Err e) /\ exists s, In s (before_hash toks) /\ parse s = None).
Proof.
  induction toks as [|s toks IH]; intros data ci; cbn [before_hash text_cols].
  - left. exists []. rewrite app_nil_r. cbn. rewrite Nat.add_0_r. auto.
  - destruct (starts_hash s). { left. exists []. rewrite app_nil_r. cbn. rewrite Nat.add_0_r. auto. }
    destruct (parse s) as [v|] eqn:P; cbn [bind].
    + destruct (IH (data ++ [v]) (ci + 1)) as [(vs & M & E)|(E & x & I & Q)].
      * left. exists (v :: vs). cbn [map length]. rewrite M, P, E, <- app_assoc. split; auto. do 2 f_equal. lia.
      * right. split; auto. exists x. split; auto. now right.
    + right. split; [eauto|]. exists s. split; [now left | auto].
Qed.

(** the text holds a matrix: the rows have the same length and all the cells can be parsed *)
Definition is_text_matrix (text : string) : Prop :=
  forall r, In r (rows text) -> row_ok (length (hd [] (rows text))) r.

Lemma text_body ls n : forall row data, row <> 0 ->
  (exists vs, text_lines T parse row n data ls = Ok (row + length (filter (fun r => negb (length r =? 0)) (map cells ls)), n, data ++ concat vs) /\
     Forall2 (fun v r => map Some v = map parse r /\ length r = n) vs (filter (fun r => negb (length r =? 0)) (map cells ls))) \/
  ((exists e, text_lines T parse row n data ls = Err e) /\
   exists r, In r (filter (fun r => negb (length r =? 0)) (map cells ls)) /\ ~ row_ok n r).
Proof.
  induction ls as [|line ls IH]; intros row data H; cbn [text_lines map filter].
  - left. exists []. cbn. rewrite app_nil_r, Nat.add_0_r. auto.
  - destruct (no_data line) eqn:N.
    + apply no_data_iff in N. rewrite N. cbn [length Nat.eqb negb]. now apply IH.
    + assert (K : cells line <> []) by (now apply no_data_false).
      replace (negb (length (cells line) =? 0)) with true by (destruct (cells line); [congruence | reflexivity]).
      rewrite MM_Thm.split_trim.
      destruct (text_row (split_ws line) data 0) as [(vs & M & E)|((e & E) & s & I & Q)];
        change (before_hash (split_ws line)) with (cells line) in *; rewrite E; cbn [bind].
      * rewrite (proj2 (Nat.eqb_neq row 0) H). cbn [Nat.add].
        destruct (Nat.eqb_spec (length (cells line)) n) as [EQ|NE]; cbn [negb].
        -- destruct (IH (row + 1) (data ++ vs)) as [(ws & E2 & F)|(E2 & r & I & R2)]; [lia| |].
           ++ left. exists (vs :: ws). rewrite E2. cbn [length concat]. rewrite <- app_assoc. split; [do 3 f_equal; lia|]. constructor; auto.
           ++ right. split; auto. exists r. split; auto. now right.
        -- right. split; [eauto|]. exists (cells line). split; [now left|]. intros (Q & _). contradiction.
      * right. split; [eauto|]. exists (cells line). split; [now left|]. intros (_ & Q2). exact (Q2 s I Q).
Qed.

Lemma text_cases text :
  (exists vs, text_lines T parse 0 0 [] (lines text) = Ok (length (rows text), length (hd [] (rows text)), concat vs) /\
     Forall2 (fun v r => map Some v = map parse r /\ length r = length (hd [] (rows text))) vs (rows text)) \/
  ((exists e, text_lines T parse 0 0 [] (lines text) = Err e) /\ ~ is_text_matrix text).
Proof.
  unfold is_text_matrix, rows. induction (lines text) as [|line ls IH]; cbn [text_lines map filter].
  - left. exists []. cbn. auto.
  - destruct (no_data line) eqn:N.
    + apply no_data_iff in N. rewrite N. cbn [length Nat.eqb negb]. exact IH.
    + clear IH. assert (K : cells line <> []) by (now apply no_data_false).
      replace (negb (length (cells line) =? 0)) with true by (destruct (cells line); [congruence | reflexivity]).
      rewrite MM_Thm.split_trim. cbn [hd].
      destruct (text_row (split_ws line) [] 0) as [(vs & M & E)|((e & E) & s & I & Q)];
        change (before_hash (split_ws line)) with (cells line) in *; rewrite E; cbn [bind].
      * cbn [Nat.eqb Nat.add app].
        destruct (text_body ls (length (cells line)) 1 vs) as [(ws & E2 & F)|(E2 & r & I & R2)]; [lia| |].
        -- left. exists (vs :: ws). rewrite E2. cbn [length concat]. split; [reflexivity|]. constructor; auto.
        -- right. split; auto. intros HH. apply R2. apply HH. now right.
      * right. split; [eauto|]. intros HH. destruct (HH (cells line)) as (_ & Q2); [now left|]. exact (Q2 s I Q).
Qed.

Lemma all_some (l : list T) (r : list string) j : map Some l = map parse r -> j < length r -> parse (nth j r ""%string) = Some (nth j l zero) .
Proof.
  revert r j. induction l as [|x l IH]; intros [|s r] j M L; cbn in *; try lia; try discriminate.
  injection M as M1 M2. destruct j; [now rewrite <- M1|]. apply IH; auto; lia.
Qed.
Lemma nth_concat (vs : list (list T)) n : (forall v, In v vs -> length v = n) ->
  length (concat vs) = length vs * n /\ forall i j, i < length vs -> j < n -> nth (i * n + j) (concat vs) zero = nth j (nth i vs []) zero.
Proof.
  induction vs as [|v vs IH]; intros H; cbn [concat length]; [split; [reflexivity | lia]|].
  assert (Hv : length v = n) by (apply H; now left). destruct IH as (L & G); [intros; apply H; now right|].
  split; [rewrite app_length, L, Hv; lia|]. intros [|i] j Hi Hj.
  - cbn. rewrite app_nth1 by lia. reflexivity.
  - rewrite app_nth2 by (rewrite Hv; nia). rewrite Hv. replace (S i * n + j - n) with (i * n + j) by nia. cbn [nth]. apply G; lia.
Qed.

(** the text is read if and only if it holds a matrix; otherwise an error is returned, and nothing panics.
    The matrix has one row for each row of the text, and its entries are the values of the cells *)
Theorem C81_text text :
  (is_text_matrix text -> exists a f, d_from_text T parse zero text = Ok a /\
     is_matrix a (length (rows text)) (length (hd [] (rows text))) f /\
     forall i j, i < length (rows text) -> j < length (hd [] (rows text)) ->
       parse (nth j (nth i (rows text) []) ""%string) = Some (f i j)) /\
  (~ is_text_matrix text -> exists e, d_from_text T parse zero text = Err e).
Proof.
  unfold d_from_text. destruct (text_cases text) as [(vs & E & F)|((e & E) & N)]; rewrite E; cbn [bind].
  2:{ split; [intros; contradiction | eauto]. }
  set (n := length (hd [] (rows text))) in *. set (m := length (rows text)) in *.
  assert (HV : length vs = m) by (unfold m; clear - F; induction F; cbn; congruence).
  assert (HL : forall v, In v vs -> length v = n).
  { clear - F. clearbody n. induction F as [|v r vs rs (M & L) F IH]; intros x [].
    - subst x. apply (f_equal (@length _)) in M. rewrite !map_length in M. lia.
    - auto. }
  destruct (nth_concat vs n HL) as (CL & CN).
  split.
  - intros _. set (f := fun i j => nth j (nth i vs []) zero).
    destruct (fill2 zero m (fun _ => 0) (fun _ => n) (fun i j => i + j * m) f
      (fun i j data => x <- vget (concat vs) (i * n + j) ;; vset data (i + j * m) x) (repeat zero (m * n))) as (d & E2 & HL2 & H1 & _).
    + lia.
    + intros. rewrite repeat_length. apply idx_lt; lia.
    + intros i j i' j' Hi Hj Hi' Hj' Q. apply idx_inj in Q; lia.
    + intros i j d Hi Hj _. rewrite (vget_ok _ _ zero) by (rewrite CL, HV; nia). cbn [bind]. rewrite CN by lia. reflexivity.
    + rewrite E2. cbn [bind]. exists (mkD m n d), f. split; [reflexivity|]. rewrite repeat_length in HL2. split.
      * apply (is_matrix_dval T zero); auto. cbn [d_data]. intros i j Hi Hj. apply H1; lia.
      * intros i j Hi Hj. unfold f. unfold m in Hi.
        assert (Q : forall i, i < length (rows text) -> map Some (nth i vs []) = map parse (nth i (rows text) []) /\ length (nth i (rows text) []) = n).
        { clear - F. clearbody n. induction F as [|v r vs rs (M & L) F IH]; intros i Hi; cbn in Hi; [lia|]. destruct i; cbn [nth]; auto. apply IH. lia. }
        destruct (Q i Hi) as (M & L). apply all_some; [exact M | lia].
  - intros NM. exfalso. apply NM. intros r I.
    fold n. clear - F I. clearbody n. induction F as [|v r' vs rs (M & L) F IH]; [destruct I|]. destruct I as [<-|I]; auto.
    split; auto. intros s Is Q. clear - M Is Q. revert v M. induction r' as [|x r IH]; intros [|y v] M; cbn in *; try discriminate; [destruct Is|].
    injection M as M1 M2. destruct Is as [->|Is]; [congruence | eauto].
Qed.

End Spec.

(* ------------------------------------------------------------------ *)
(** * Examples and findings *)

(** numbers of the examples: one digit *)
Definition digit (s : string) : option nat :=
  match s with
  | String c EmptyString => let k := nat_of_ascii c in if (48 <=? k) && (k <=? 57) then Some (k - 48) else None
  | _ => None
  end.
Definition eol : string := String newline EmptyString.
Definition ex_file : string := ("# comment" ++ eol ++ "  x y  # header" ++ eol ++ "" ++ eol ++ "1  4" ++ eol ++ " 2 5 # note" ++ eol)%string.

(** the file has a header and two rows, is a table with and without labels, and its columns are read *)
Example C80_example :
  rows ex_file = [["x"; "y"]; ["1"; "4"]; ["2"; "5"]] /\ is_table nat digit None ex_file /\ is_table nat digit (Some ["x"; "y"]) ex_file /\
  read_table nat digit None ex_file = Ok [("x", [1; 2]); ("y", [4; 5])] /\
  read_table nat digit (Some ["x"; "z"]) ex_file = Err "column data is missing".
Proof.
  splits; try reflexivity; unfold is_table; change (rows ex_file) with [["x"; "y"]; ["1"; "4"]; ["2"; "5"]]; cbn [header_ok]; split.
  - repeat constructor; cbn; intuition discriminate.
  - intros r [<-|[<-|[]]]; split; auto; intros s [<-|[<-|[]]]; discriminate.
  - exists []. reflexivity.
  - intros r [<-|[<-|[]]]; split; auto; intros s [<-|[<-|[]]]; discriminate.
Qed.

(** the documentation says that, without labels, the columns are named col0, col1, ...; instead the
    first row is taken as the header: in a file of numbers the first row is lost *)
Theorem C80_default_labels_refuted : exists text tab,
  rows text = [["1"; "2"]; ["3"; "4"]] /\ read_table nat digit None text = Ok tab /\
  tab_get nat tab "col0" = None /\ tab_get nat tab "1" = Some [3] /\ tab_get nat tab "2" = Some [4].
Proof. exists ("1 2" ++ eol ++ "3 4")%string. eexists. splits; reflexivity. Qed.

(** the documentation says that the labels are used to check the header; a file that lacks the last
    labels passes the check, and the missing columns are not in the table *)
Theorem C80_missing_labels_refuted : exists text tab,
  rows text = [["x"]; ["7"]] /\ read_table nat digit (Some ["x"; "y"]) text = Ok tab /\
  tab_get nat tab "x" = Some [7] /\ tab_get nat tab "y" = None.
Proof. exists ("x" ++ eol ++ "7")%string. eexists. splits; reflexivity. Qed.

(** duplicate labels are refused when the labels come from the file, but not when they are given:
    the columns with the same label are mixed, and a column is longer than the number of rows *)
Theorem C80_duplicates_refuted : exists text tab,
  rows text = [["x"; "x"]; ["1"; "2"]; ["3"; "4"]] /\ read_table nat digit None text = Err "found duplicate column label" /\
  read_table nat digit (Some ["x"; "x"]) text = Ok tab /\ tab_get nat tab "x" = Some [1; 2; 3; 4].
Proof. exists ("x x" ++ eol ++ "1 2" ++ eol ++ "3 4")%string. eexists. splits; reflexivity. Qed.

(** the example of the documentation of from_text_file, and a text that is not a matrix *)
Example C81_example :
  d_from_text nat digit 0 (" ## hash" ++ eol ++ eol ++ " 1   4  # first" ++ eol ++ "  2   5" ++ eol ++ "    3   6   # more" ++ eol)%string = Ok (mkD 3 2 [1; 2; 3; 4; 5; 6]) /\
  is_text_matrix nat digit ("1 4" ++ eol ++ "2 5")%string /\ ~ is_text_matrix nat digit ("1 4" ++ eol ++ "2")%string /\
  d_from_text nat digit 0 ("1 4" ++ eol ++ "2")%string = Err "column data is missing" /\
  d_from_text nat digit 0 "# nothing" = Ok (mkD 0 0 []).
Proof.
  splits; try reflexivity; unfold is_text_matrix.
  - change (rows ("1 4" ++ eol ++ "2 5")%string) with [["1"; "4"]; ["2"; "5"]].
    intros r [<-|[<-|[]]]; split; auto; intros s [<-|[<-|[]]]; discriminate.
  - change (rows ("1 4" ++ eol ++ "2")%string) with [["1"; "4"]; ["2"]]. intros H. destruct (H ["2"]) as (L & _); [right; now left|]. discriminate L.
Qed.

Print Assumptions C80_accepted.
Print Assumptions C80_columns.
Print Assumptions C80_empty.
Print Assumptions C80_default_labels_refuted.
Print Assumptions C80_missing_labels_refuted.
Print Assumptions C80_duplicates_refuted.
Print Assumptions C81_text.
