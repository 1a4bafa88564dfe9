(** Model of opm/core/props/pvt: SinglePvtConstCompr.hpp, SinglePvtDead.cpp,
    SinglePvtDeadSpline.cpp, SinglePvtLiveOil.cpp, SinglePvtLiveGas.cpp and
    BlackoilPvtProperties.cpp: viscosities, formation volume factors and solution
    factors as functions of pressure and surface volumes.

    Simplifications valid for the whole file:
    - doubles are real numbers; a division by zero is undefined (in C++ it gives an
      infinite or undefined number and goes on);
    - table look-up is that of TableModel.v;
    - std::fill over n elements is written as the loop it is;
    - the address of the first element of an empty vector is not looked at. *)
From Coq Require Import Reals.
From Verif Require Import Base LoopModel TableModel PhaseModel KrModel.
Local Open Scope R_scope.

(** for (i = 0; i < n; ++i) out[i] = f(i), e.g. SinglePvtDead.cpp:77-80. *)
Definition each (n : nat) (f : nat → option R) (out : list R) : option (list R) :=
  for_loop n 0 (λ i out, v ← f i; upd out i v) out.
(** The same with two outputs, e.g. SinglePvtConstCompr.hpp:111-116. *)
Definition each2 (n : nat) (f : nat → option (R * R)) (out1 out2 : list R) : option (list R * list R) :=
  for_loop n 0 (λ i '(o1, o2), '(v, w) ← f i; o1 ← upd o1 i v; o2 ← upd o2 i w; Some (o1, o2)) (out1, out2).

(** ** SinglePvtConstCompr *)
(** Data members, SinglePvtConstCompr.hpp:141-145. *)
Record const_compr := ConstCompr { cc_press : R; cc_refB : R; cc_comp : R; cc_visc : R; cc_vcomp : R }.
(** Constructors, SinglePvtConstCompr.hpp:43-63. *)
Definition cc_make (pvtw : list (list R)) : option const_compr :=
  match pvtw with
  | [r] => p ← r !! 0%nat; b ← r !! 1%nat; c ← r !! 2%nat; v ← r !! 3%nat; w ← r !! 4%nat; Some (ConstCompr p b c v w)
  | _ => None
  end.
Definition cc_make_visc (visc : R) : const_compr := ConstCompr 0 1 0 visc 0.
(** One turn of the loops, or the filled value, SinglePvtConstCompr.hpp:69-84, 86-101. *)
Definition cc_mu (c : const_compr) (p : R) : option R :=
  if Req_EM_T (cc_vcomp c) 0 then Some (cc_visc c) else
  let x := - cc_vcomp c * (p - cc_press c) in rdiv (cc_visc c) (1 + x + / 2 * x * x).
Definition cc_B (c : const_compr) (p : R) : option R :=
  if Req_EM_T (cc_comp c) 0 then Some (cc_refB c) else
  let x := cc_comp c * (p - cc_press c) in rdiv (cc_refB c) (1 + x + / 2 * x * x).
(** SinglePvtConstCompr.hpp:103-121. *)
Definition cc_dB (c : const_compr) (p : R) : option (R * R) :=
  if Req_EM_T (cc_comp c) 0 then Some (cc_refB c, 0) else
  let x := cc_comp c * (p - cc_press c) in
  let d := 1 + x + / 2 * x * x in
  b ← rdiv (cc_refB c) d; q ← rdiv (- cc_refB c) (d * d); Some (b, q * (1 + x) * cc_comp c).

(** ** SinglePvtDead and SinglePvtDeadSpline *)
(** Data members, SinglePvtDead.hpp:76-77, SinglePvtDeadSpline.hpp:77-78. *)
Record dead := Dead { dd_inv : table; dd_visc : table }.
(** Constructors, SinglePvtDead.cpp:37-63 and SinglePvtDeadSpline.cpp:38-64; [mk]
    makes a table. *)
Definition dd_make (mk : list R → list R → option table) (pvd : list (list (list R))) : option dead :=
  match pvd with
  | [t] =>
      press ← t !! 0%nat; b ← t !! 1%nat; v ← t !! 2%nat;
      let sz := length press in
      binv ← mapM (λ i, x ← b !! i; rdiv 1 x) (seq 0 sz);
      visc ← mapM (λ i, v !! i) (seq 0 sz);
      t1 ← mk press binv; t2 ← mk press visc; Some (Dead t1 t2)
  | _ => None
  end.
(** One turn of the loops of SinglePvtDead.cpp:72-81 and 83-92. *)
Definition dd_mu (d : dead) (p : R) : option R := tv (dd_visc d) p.
Definition dd_B (d : dead) (p : R) : option R := x ← tv (dd_inv d) p; rdiv 1 x.
(** SinglePvtDead.cpp:94-106 and SinglePvtDeadSpline.cpp:95-107: the values are read
    back from the output. *)
Definition dd_dBdp (d : dead) (n : nat) (p outB outD : list R) : option (list R * list R) :=
  outB ← each n (λ i, x ← p !! i; dd_B d x) outB;
  outD ← each n (λ i, b ← outB !! i; x ← p !! i; s ← td (dd_inv d) x; Some (- b * b * s)) outD;
  Some (outB, outD).

(** ** Live oil and live gas *)
(** saturated_*_table_ and undersat_*_tables_, SinglePvtLiveOil.hpp:87-88,
    SinglePvtLiveGas.hpp:85-86. *)
Record live := Live { lv_sat : list (list R); lv_und : list (list (list R)) }.
(** linearInterpolation and linearInterpolationDerivative between columns [a] and [b]
    of a table. *)
Definition interp (t : list (list R)) (a b : nat) (x : R) : option R :=
  xa ← t !! a; xb ← t !! b; linear_interpolation (length xa) xa xb x.
Definition interp_deriv (t : list (list R)) (a b : nat) (x : R) : option R :=
  xa ← t !! a; xb ← t !! b; linear_derivative (length xa) xa xb x.
(** surfvol[phase_pos_[p]]. *)
Definition vol (pos : list nat) (p : phase) (z : list R) : option R := i ← pos !! phase_index p; z !! i.

(** miscible_oil, SinglePvtLiveOil.cpp:292-348. *)
Definition miscible_oil (L : live) (pos : list nat) (press : R) (z : list R) (item : nat) (deriv : bool) : option R :=
  let sat := lv_sat L in
  Rval ← interp sat 0 3 press;
  liq ← vol pos Liquid z;
  maxR ← (if Req_EM_T liq 0 then Some 0 else vap ← vol pos Vapour z; rdiv vap liq);
  let eval := if deriv then interp_deriv else interp in
  if Rlt_dec Rval maxR then eval sat 0%nat item press
  else
    rs ← sat !! 3%nat;
    is ← table_index (length rs) rs maxR;
    r0 ← rs !! is; r1 ← rs !! (is + 1)%nat;
    w ← rdiv (maxR - r0) (r1 - r0);
    t0 ← lv_und L !! is; p0 ← t0 !! 0%nat;
    if decide (length p0 < 2)%nat then None else
    t1 ← lv_und L !! (is + 1)%nat; p1 ← t1 !! 0%nat;
    if decide (length p1 < 2)%nat then None else
    val1 ← eval t0 0%nat item press;
    val2 ← eval t1 0%nat item press;
    Some (val1 + w * (val2 - val1)).
(** evalB and evalBDeriv, SinglePvtLiveOil.cpp:239-251. *)
Definition oil_B (L : live) pos press z : option R := v ← miscible_oil L pos press z 1 false; rdiv 1 v.
Definition oil_dB (L : live) pos press z : option (R * R) :=
  b ← oil_B L pos press z; d ← miscible_oil L pos press z 1 true; Some (b, - b * b * d).
(** evalR, SinglePvtLiveOil.cpp:253-266. *)
Definition oil_R (L : live) pos press z : option R :=
  vap ← vol pos Vapour z;
  if Req_EM_T vap 0 then Some 0 else
  Rval ← interp (lv_sat L) 0 3 press;
  liq ← vol pos Liquid z; maxR ← rdiv vap liq;
  if Rlt_dec Rval maxR then Some Rval else Some maxR.
(** evalRDeriv, SinglePvtLiveOil.cpp:268-289. *)
Definition oil_dR (L : live) pos press z : option (R * R) :=
  vap ← vol pos Vapour z;
  if Req_EM_T vap 0 then Some (0, 0) else
  Rval ← interp (lv_sat L) 0 3 press;
  liq ← vol pos Liquid z; maxR ← rdiv vap liq;
  if Rlt_dec Rval maxR then d ← interp_deriv (lv_sat L) 0 3 press; Some (Rval, d) else Some (maxR, 0).

(** miscible_gas, SinglePvtLiveGas.cpp:225-305. *)
Definition miscible_gas (G : live) (pos : list nat) (press : R) (z : list R) (item : nat) (deriv : bool) : option R :=
  let sat := lv_sat G in
  ps ← sat !! 0%nat;
  is ← table_index (length ps) ps press;
  Rval ← interp sat 0 3 press;
  liq ← vol pos Liquid z; vap ← vol pos Vapour z;
  maxR ← rdiv liq vap;
  if deriv then
    if Rlt_dec Rval maxR then interp_deriv sat 0 item press
    else
      t0 ← lv_und G !! is; r0 ← t0 !! 0%nat;
      p0 ← ps !! is; p1 ← ps !! (is + 1)%nat;
      if decide (length r0 < 2)%nat then
        y ← sat !! item; y1 ← y !! (is + 1)%nat; y0 ← y !! is; rdiv (y1 - y0) (p1 - p0)
      else
        val1 ← interp t0 0 item maxR;
        t1 ← lv_und G !! (is + 1)%nat;
        val2 ← interp t1 0 item maxR;
        rdiv (val2 - val1) (p1 - p0)
  else
    if Rlt_dec Rval maxR then interp sat 0 item press
    else
      first ← ps !! 0%nat;
      if bool_decide (is = 0%nat) && (if Rlt_dec press first then true else false) then t ← lv_und G !! 0%nat; interp t 0 item maxR else
      let ltp := (length ps - 1)%nat in
      final ← ps !! ltp;
      if bool_decide ((is + 1)%nat = ltp) && (if Rgt_dec press final then true else false) then t ← lv_und G !! ltp; interp t 0 item maxR else
      p0 ← ps !! is; p1 ← ps !! (is + 1)%nat;
      w ← rdiv (press - p0) (p1 - p0);
      t0 ← lv_und G !! is; r0 ← t0 !! 0%nat;
      if decide (length r0 < 2)%nat then
        y ← sat !! item; y0 ← y !! is; y1 ← y !! (is + 1)%nat; Some (y0 + w * (y1 - y0))
      else
        val1 ← interp t0 0 item maxR;
        t1 ← lv_und G !! (is + 1)%nat;
        val2 ← interp t1 0 item maxR;
        Some (val1 + w * (val2 - val1)).
(** evalB and evalBDeriv, SinglePvtLiveGas.cpp:160-180. *)
Definition gas_B (G : live) pos press z : option R :=
  vap ← vol pos Vapour z; if Req_EM_T vap 0 then Some 1 else miscible_gas G pos press z 1 false.
Definition gas_dB (G : live) pos press z : option (R * R) :=
  vap ← vol pos Vapour z; if Req_EM_T vap 0 then Some (1, 0) else
  b ← miscible_gas G pos press z 1 false; d ← miscible_gas G pos press z 1 true; Some (b, d).
(** evalR and evalRDeriv, SinglePvtLiveGas.cpp:182-223. *)
Definition gas_R (G : live) pos press z : option R :=
  liq ← vol pos Liquid z; if Req_EM_T liq 0 then Some 0 else
  satR ← interp (lv_sat G) 0 3 press;
  vap ← vol pos Vapour z; maxR ← rdiv liq vap;
  if Rlt_dec satR maxR then Some satR else Some maxR.
Definition gas_dR (G : live) pos press z : option (R * R) :=
  liq ← vol pos Liquid z; if Req_EM_T liq 0 then Some (0, 0) else
  satR ← interp (lv_sat G) 0 3 press;
  vap ← vol pos Vapour z; maxR ← rdiv liq vap;
  if Rlt_dec satR maxR then d ← interp_deriv (lv_sat G) 0 3 press; Some (satR, d) else Some (maxR, 0).

(** ** The classes as one type *)
Inductive pvt := PConst (c : const_compr) | PDead (d : dead) | POil (L : live) | PGas (G : live).
(** mu: SinglePvtConstCompr.hpp:69-84, SinglePvtDead.cpp:72-81,
    SinglePvtDeadSpline.cpp:73-82, SinglePvtLiveOil.cpp:167-176,
    SinglePvtLiveGas.cpp:90-99. *)
Definition pvt_mu (x : pvt) (np : nat) (pos : list nat) (n : nat) (p z out : list R) : option (list R) :=
  each n (λ i, match x with
    | PConst c => if Req_EM_T (cc_vcomp c) 0 then Some (cc_visc c) else pi ← p !! i; cc_mu c pi
    | PDead d => pi ← p !! i; dd_mu d pi
    | POil L => pi ← p !! i; miscible_oil L pos pi (drop (np * i) z) 2 false
    | PGas G => pi ← p !! i; miscible_gas G pos pi (drop (np * i) z) 2 false
    end) out.
(** B: SinglePvtConstCompr.hpp:86-101, SinglePvtDead.cpp:83-92,
    SinglePvtDeadSpline.cpp:84-93, SinglePvtLiveOil.cpp:180-190,
    SinglePvtLiveGas.cpp:103-113. *)
Definition pvt_B (x : pvt) (np : nat) (pos : list nat) (n : nat) (p z out : list R) : option (list R) :=
  each n (λ i, match x with
    | PConst c => if Req_EM_T (cc_comp c) 0 then Some (cc_refB c) else pi ← p !! i; cc_B c pi
    | PDead d => pi ← p !! i; dd_B d pi
    | POil L => pi ← p !! i; oil_B L pos pi (drop (np * i) z)
    | PGas G => pi ← p !! i; gas_B G pos pi (drop (np * i) z)
    end) out.
(** dBdp: SinglePvtConstCompr.hpp:103-121, SinglePvtDead.cpp:94-106,
    SinglePvtDeadSpline.cpp:95-107, SinglePvtLiveOil.cpp:194-204,
    SinglePvtLiveGas.cpp:117-127. *)
Definition pvt_dBdp (x : pvt) (np : nat) (pos : list nat) (n : nat) (p z outB outD : list R) : option (list R * list R) :=
  match x with
  | PConst c => each2 n (λ i, if Req_EM_T (cc_comp c) 0 then Some (cc_refB c, 0) else pi ← p !! i; cc_dB c pi) outB outD
  | PDead d => dd_dBdp d n p outB outD
  | POil L => each2 n (λ i, pi ← p !! i; oil_dB L pos pi (drop (np * i) z)) outB outD
  | PGas G => each2 n (λ i, pi ← p !! i; gas_dB G pos pi (drop (np * i) z)) outB outD
  end.
(** R: SinglePvtConstCompr.hpp:123-129, SinglePvtDead.cpp:109-115,
    SinglePvtDeadSpline.cpp:110-116, SinglePvtLiveOil.cpp:208-218,
    SinglePvtLiveGas.cpp:131-141. *)
Definition pvt_R (x : pvt) (np : nat) (pos : list nat) (n : nat) (p z out : list R) : option (list R) :=
  each n (λ i, match x with
    | PConst _ | PDead _ => Some 0
    | POil L => pi ← p !! i; oil_R L pos pi (drop (np * i) z)
    | PGas G => pi ← p !! i; gas_R G pos pi (drop (np * i) z)
    end) out.
(** dRdp: SinglePvtConstCompr.hpp:131-139, SinglePvtDead.cpp:117-125,
    SinglePvtDeadSpline.cpp:118-126, SinglePvtLiveOil.cpp:222-232,
    SinglePvtLiveGas.cpp:145-155. *)
Definition pvt_dRdp (x : pvt) (np : nat) (pos : list nat) (n : nat) (p z outR outD : list R) : option (list R * list R) :=
  each2 n (λ i, match x with
    | PConst _ | PDead _ => Some (0, 0)
    | POil L => pi ← p !! i; oil_dR L pos pi (drop (np * i) z)
    | PGas G => pi ← p !! i; gas_dR G pos pi (drop (np * i) z)
    end) outR outD.

(** ** BlackoilPvtProperties *)
(** data1_.resize(n), BlackoilPvtProperties.cpp:144. *)
Definition resize (n : nat) (l : list R) : list R := take n l ++ replicate (n - length l) 0.
(** The loop of BlackoilPvtProperties.cpp:148-150: values of one phase go to their
    places. *)
Definition spread (np phase n : nat) (data out : list R) : option (list R) :=
  for_loop n 0 (λ i out, v ← data !! i; upd out (np * i + phase) v) out.
(** mu, B and R, BlackoilPvtProperties.cpp:139-152, 154-167 and 188-201; [f] is the
    method called; [data1] the member data1_. *)
Definition bo_one (f : pvt → nat → list nat → nat → list R → list R → list R → option (list R)) (props : list pvt) (pu : phase_usage) (n : nat) (p z data1 out : list R) : option (list R * list R) :=
  let np := pu_num pu in
  for_loop np 0 (λ phase '(data1, out),
    x ← props !! phase;
    data1 ← f x np (pu_pos pu) n p z data1;
    out ← spread np phase n data1 out;
    Some (data1, out)) (resize n data1, out).
(** dBdp and dRdp, BlackoilPvtProperties.cpp:169-185 and 203-219.  The two outputs are
    filled in one loop there. *)
Definition bo_two (f : pvt → nat → list nat → nat → list R → list R → list R → list R → option (list R * list R)) (props : list pvt) (pu : phase_usage) (n : nat) (p z data1 data2 out1 out2 : list R) : option (list R * list R * (list R * list R)) :=
  let np := pu_num pu in
  for_loop np 0 (λ phase '(data1, data2, (out1, out2)),
    x ← props !! phase;
    '(data1, data2) ← f x np (pu_pos pu) n p z data1 data2;
    out1 ← spread np phase n data1 out1;
    out2 ← spread np phase n data2 out2;
    Some (data1, data2, (out1, out2))) (resize n data1, resize n data2, (out1, out2)).
