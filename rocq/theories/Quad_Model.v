(** russell_lab/src/algo/quadrature.rs: adaptive Gaussian quadrature.

    f64 is read as a real number; the callback is that of Search_Model (it may
    depend on the earlier calls and may fail).  LN2 and SQRT_2 stand for the
    numbers they approximate.  Of the statistics the number of function calls,
    the number of iterations and the error estimate are modelled (tracking
    enabled). *)
From Verif Require Export Search_Model.
Open Scope R_scope.

(** quadrature.rs:405-409 *)
Definition G6_A : list R := [
  0.6612093864662644815410885712481103837490081787109375;
  0.2386191860831969047129774708082550205290317535400390625;
  0.9324695142031520500580654697841964662075042724609375]%R.
(** quadrature.rs:411-415 *)
Definition G6_W : list R := [
  0.3607615730481386062677984227775596082210540771484375;
  0.467913934572691037061531460494734346866607666015625;
  0.1713244923791703566706701167277060449123382568359375]%R.
(** quadrature.rs:417-422 *)
Definition G8_A : list R := [
  0.1834346424956498078362443493460887111723423004150390625;
  0.525532409916328990817646626965142786502838134765625;
  0.7966664774136267279658341067261062562465667724609375;
  0.96028985649753628717206765941227786242961883544921875]%R.
(** quadrature.rs:424-429 *)
Definition G8_W : list R := [
  0.362683783378361990212823684487375430762767791748046875;
  0.313706645877887269069361764195491559803485870361328125;
  0.222381034453374482051657423653523437678813934326171875;
  0.101228536290376258666157127663609571754932403564453125]%R.
(** quadrature.rs:431-437 *)
Definition G10_A : list R := [
  0.148874338981631215705903059642878361046314239501953125;
  0.4333953941292472133994806426926515996456146240234375;
  0.67940956829902443558921731892041862010955810546875;
  0.86506336668898453634568568304530344903469085693359375;
  0.97390652851717174343093574861995875835418701171875]%R.
(** quadrature.rs:439-445 *)
Definition G10_W : list R := [
  0.295524224714752870024625508449389599263668060302734375;
  0.26926671930999634962944355720537714660167694091796875;
  0.2190863625159820415877476307286997325718402862548828125;
  0.1494513491505805868886369580650352872908115386962890625;
  0.06667134430868813799175853773704147897660732269287109375]%R.
(** quadrature.rs:447-454 *)
Definition G12_A : list R := [
  0.12523340851146891328227184203569777309894561767578125;
  0.367831498998180184134554338015732355415821075439453125;
  0.58731795428661748292853417297010309994220733642578125;
  0.7699026741943046925342741815256886184215545654296875;
  0.904117256370474908777623568312264978885650634765625;
  0.98156063424671924355635610481840558350086212158203125]%R.
(** quadrature.rs:456-463 *)
Definition G12_W : list R := [
  0.2491470458134027732288728884668671526014804840087890625;
  0.2334925365383548057085505433860816992819309234619140625;
  0.203167426723065924765165846110903657972812652587890625;
  0.1600783285433462210800570346691529266536235809326171875;
  0.10693932599531842664308811663431697525084018707275390625;
  0.047175336386511827757583859010992455296218395233154296875]%R.
(** quadrature.rs:465-473 *)
Definition G14_A : list R := [
  0.1080549487073436676354276642086915671825408935546875;
  0.31911236892788974461865336706978268921375274658203125;
  0.5152486363581540995681962158414535224437713623046875;
  0.68729290481168547888302100545843131840229034423828125;
  0.827201315069765019671876871143467724323272705078125;
  0.92843488366357351804225572777795605361461639404296875;
  0.98628380869681231413181876632734201848506927490234375]%R.
(** quadrature.rs:475-483 *)
Definition G14_W : list R := [
  0.21526385346315779489856367945321835577487945556640625;
  0.2051984637212956041896205761076998896896839141845703125;
  0.185538397477937821999915968262939713895320892333984375;
  0.157203167158193546359967740499996580183506011962890625;
  0.12151857068790318516793291792055242694914340972900390625;
  0.08015808715976020792925993418975849635899066925048828125;
  0.035119460331751860271420895287519670091569423675537109375]%R.

(** quadrature.rs:44-47, 60, 70 *)
Definition KMX : nat := 100 * 50.
Definition KML : nat := 6.
Definition N_WORK : nat := 60.
Definition M_ERR : R := 3.

(** `x as usize` of a nonnegative number *)
Definition as_usize (x : R) : nat := Z.to_nat (Int_part x).

(** quadrature.rs:226-229.  D1MACH5 * 53 / MAGIC is 53.0017..., cut to 53, and
    53 * 5 / 8 = 33 is below 60; computed here once and for all. *)
Definition N_BIT : nat := 53.
Definition N_LMX : nat := Nat.min 60 (N_BIT * 5 / 8).

(** quadrature.rs:74-107: the parameters and the workspace *)
Record quadrature := mkQ {
  n_iteration_max : nat; tolerance : R; n_gauss : nat;
  w_aa : list R; w_hh : list R; w_vl : list R; w_gr : list R; w_lr : list Z }.

(** quadrature.rs:111-123 `new` *)
Definition quadrature_new : quadrature :=
  mkQ 300 1e-10 10 (repeat 0 (S N_WORK)) (repeat 0 (S N_WORK)) (repeat 0 (S N_WORK)) (repeat 0 (S N_WORK)) (repeat 0%Z (S N_WORK)).

(** quadrature.rs:126-141 `validate` *)
Definition quad_validate (q : quadrature) : res unit :=
  if (n_iteration_max q <? 2)%nat then Err "n_iteration_max must be ≥ 2"
  else if Rltb (tolerance q) (10 * FEPS) then Err "the tolerance must be ≥ 10.0 * f64::EPSILON"
  else if existsb (Nat.eqb (n_gauss q)) [6; 8; 10; 12; 14]%nat then Ok tt
  else Err "n_gauss must be 6, 8, 10, 12, or 14".

(** quadrature.rs:374-397, one of the five loops *)
Fixpoint gauss_sum (f : callback) (x h : R) (aw : list (R * R)) (sum : R) : M R :=
  match aw with
  | [] => ret (Ok sum)
  | (a, w) :: t =>
      f1 <~ ask f (x - a * h) ;;
      f2 <~ ask f (x + a * h) ;;
      gauss_sum f x h t (sum + w * (f1 + f2))
  end.

Definition gauss_table (npoint : nat) : option (list (R * R)) :=
  match npoint with
  | 6 => Some (combine G6_A G6_W)
  | 8 => Some (combine G8_A G8_W)
  | 10 => Some (combine G10_A G10_W)
  | 12 => Some (combine G12_A G12_W)
  | 14 => Some (combine G14_A G14_W)
  | _ => None
  end%nat.

(** quadrature.rs:367-401 `gauss` *)
Definition gauss (npoint : nat) (x h : R) (f : callback) : M R :=
  match gauss_table npoint with
  | Some aw => sum <~ gauss_sum f x h aw 0 ;; ret (Ok (h * sum))
  | None => ret (Err "n_gauss must be 6, 8, 10, 12, or 14")
  end.

(** the local variables and the workspace of `integrate` *)
Record qst := mkT {
  q_aa : list R; q_hh : list R; q_vl : list R; q_gr : list R; q_lr : list Z;
  q_l : nat; q_lmx : nat; q_eps : R; q_ef : R; q_est : R; q_area : R;
  q_ans : R; q_err : R; q_k : nat; q_mxl : bool; q_nf : nat; q_ni : nat }.

(** quadrature.rs:320-336: go up until a left half is found; [true] if the
    whole interval is done *)
Fixpoint go_up (l : nat) (s : qst) : res (bool * qst) :=
  match l with
  | O | S O => Ok (true, s)
  | S l' =>
      let eps := q_eps s * 2 in
      let ef := q_ef s * sqrt 2 in
      lr <- vget (q_lr s) l' ;;
      vl1 <- vget (q_vl s) (l' + 1) ;;
      if (lr <=? 0)%Z then
        vl <- vset (q_vl s) l' (vl1 + q_ans s) ;;
        est <- vget (q_gr s) (l' - 1) ;;
        lr <- vset (q_lr s) l' 1%Z ;;
        aal <- vget (q_aa s) l' ;;
        hhl <- vget (q_hh s) l' ;;
        aa <- vset (q_aa s) l' (aal + 4 * hhl) ;;
        Ok (false, mkT aa (q_hh s) vl (q_gr s) lr l' (q_lmx s) eps ef est (q_area s)
                    (q_ans s) (q_err s) (q_k s) (q_mxl s) (q_nf s) (q_ni s))
      else
        go_up l' (mkT (q_aa s) (q_hh s) (q_vl s) (q_gr s) (q_lr s) l' (q_lmx s) eps ef (q_est s) (q_area s)
                    (q_ans s + vl1) (q_err s) (q_k s) (q_mxl s) (q_nf s) (q_ni s))
  end.

(** quadrature.rs:283-347, one iteration, after the two evaluations: decide
    whether to go down, up, or to the right *)
Definition quad_next (tol gl glr : R) (s : qst) : res (bool * qst) :=
  let ee := Rabs (q_est s - glr) * q_ef s in
  let ae := Rmax (q_eps s * q_area s) (tol * Rabs glr) in
  let refine := Rltb 0 (ee - ae) in
  let lmx := if refine && (KMX <? q_k s)%nat then KML else q_lmx s in
  if refine && negb (lmx <=? q_l s)%nat then
    let l := S (q_l s) in
    hhp <- vget (q_hh s) (l - 1) ;;
    hh <- vset (q_hh s) l (hhp * 0.5) ;;
    lr <- vset (q_lr s) l (-1)%Z ;;
    aap <- vget (q_aa s) (l - 1) ;;
    aa <- vset (q_aa s) l aap ;;
    Ok (false, mkT aa hh (q_vl s) (q_gr s) lr l lmx (q_eps s * 0.5) (q_ef s / sqrt 2) gl (q_area s)
                (q_ans s) (q_err s) (q_k s) (q_mxl s) (q_nf s) (q_ni s))
  else
    let mxl := (refine || q_mxl s)%bool in
    let err := q_err s + (q_est s - glr) in
    lr <- vget (q_lr s) (q_l s) ;;
    if (0 <? lr)%Z then
      go_up (q_l s) (mkT (q_aa s) (q_hh s) (q_vl s) (q_gr s) (q_lr s) (q_l s) lmx (q_eps s) (q_ef s) (q_est s) (q_area s)
                      glr err (q_k s) mxl (q_nf s) (q_ni s))
    else
      vl <- vset (q_vl s) (q_l s) glr ;;
      lm1 <- usub (q_l s) 1 ;;
      est <- vget (q_gr s) lm1 ;;
      lr <- vset (q_lr s) (q_l s) 1%Z ;;
      aal <- vget (q_aa s) (q_l s) ;;
      hhl <- vget (q_hh s) (q_l s) ;;
      aa <- vset (q_aa s) (q_l s) (aal + 4 * hhl) ;;
      Ok (false, mkT aa (q_hh s) vl (q_gr s) lr (q_l s) lmx (q_eps s) (q_ef s) est (q_area s)
                  (q_ans s) err (q_k s) mxl (q_nf s) (q_ni s)).

(** quadrature.rs:282-353: at most [n] iterations *)
Fixpoint quad_loop (f : callback) (ng : nat) (tol : R) (n : nat) (s : qst) : M qst :=
  match n with
  | O => ret (Err "integrate failed to converge")
  | S n' =>
      aal <~ ret (vget (q_aa s) (q_l s)) ;;
      hhl <~ ret (vget (q_hh s) (q_l s)) ;;
      gl <~ gauss ng (aal + hhl) hhl f ;;
      grl <~ gauss ng (aal + 3 * hhl) hhl f ;;
      gr <~ ret (vset (q_gr s) (q_l s) grl) ;;
      let area := q_area s + (Rabs gl + Rabs grl - Rabs (q_est s)) in
      let s := mkT (q_aa s) (q_hh s) (q_vl s) gr (q_lr s) (q_l s) (q_lmx s) (q_eps s) (q_ef s) (q_est s) area
                 (q_ans s) (q_err s) (q_k s + 16) (q_mxl s) (q_nf s + ng + ng) (q_ni s + 1) in
      r <~ ret (quad_next tol gl (gl + grl) s) ;;
      let '(converged, s) := r in
      if converged then ret (Ok s) else quad_loop f ng tol n' s
  end.

(** quadrature.rs:233-257: the depth limit for bounds that are close *)
Definition quad_lmx (a b : R) : res nat :=
  if negb (Reqb b 0) then
    if Rltb 0 ((if Rltb b 0 then -1 else 1) * a) then
      let c := Rabs (1 - a / b) in
      if Rleb c 0.1 then
        let nib := as_usize (0.5 - ln c / ln 2) in
        d <- usub N_BIT nib ;;
        d <- usub d 7 ;;
        let lmx := Nat.min N_LMX d in
        if (lmx <? 1)%nat then Err "the lower and upper bounds must not be so close one from another"
        else Ok lmx
      else Ok N_LMX
    else Ok N_LMX
  else Ok N_LMX.

(** the value, the error estimate, n_function and n_iterations *)
Record qout := mkO { o_value : R; o_error : R; o_nf : nat; o_ni : nat }.

(** quadrature.rs:201-363 `integrate` *)
Definition quad_integrate (q : quadrature) (a b : R) (f : callback) : M qout :=
  if Rltb (Rabs (b - a)) (10 * FEPS) then ret (Err "the lower and upper bounds must be different from each other")
  else
    _ <~ ret (quad_validate q) ;;
    let aa := map (fun _ => 0) (w_aa q) in
    let hh := map (fun _ => 0) (w_hh q) in
    let vl := map (fun _ => 0) (w_vl q) in
    let gr := map (fun _ => 0) (w_gr q) in
    let lr := map (fun _ => 0%Z) (w_lr q) in
    lmx <~ ret (quad_lmx a b) ;;
    let tol := Rmax (Rabs (tolerance q)) (/ 2 ^ (N_BIT - 5)) / 2 in
    hh <~ ret (vset hh 1 ((b - a) / 4)) ;;
    aa <~ ret (vset aa 1 a) ;;
    lr <~ ret (vset lr 1 1%Z) ;;
    aal <~ ret (vget aa 1) ;;
    hhl <~ ret (vget hh 1) ;;
    est <~ gauss (n_gauss q) (aal + 2 * hhl) (2 * hhl) f ;;
    s <~ quad_loop f (n_gauss q) tol (n_iteration_max q)
           (mkT aa hh vl gr lr 1 lmx tol 0.5 est (Rabs est) 0 0 8 false (n_gauss q) 0) ;;
    if q_mxl s && Rltb (M_ERR * tol * q_area s) (Rabs (q_err s)) then
      ret (Err "quadrature.integrate cannot achieve the desired tolerance")
    else ret (Ok (mkO (q_ans s) (q_err s) (q_nf s) (q_ni s))).
