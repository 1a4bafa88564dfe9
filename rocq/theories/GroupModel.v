(** Model of opm/core/wells/WellsGroup.cpp: trees of groups and wells, group
    controls and constraint checks, and of the loops over the roots in
    opm/core/wells/WellCollection.cpp.

    Simplifications valid for the whole file:
    - double is [R]; a division by zero is [None];
    - parents and names are left out (they are only used to find nodes and to
      print), so are the printed messages;
    - the phase usage is the same [pu] for all nodes (createWellsGroup,
      WellsGroup.cpp:1046, takes it from the deck each time);
    - the Wells structure all wells point to is threaded through, with the
      allocation oracle of WellsModel.v; [J] is the content of new memory;
    - a pointer to a well of the tree is the list of child numbers leading to
      it; [None] is NULL. *)
From Coq Require Import Reals.
From Verif Require Import Base WellsModel PhaseModel TableModel.
Local Open Scope R_scope.

(** ProductionSpecification.hpp:12-20. *)
Inductive pmode := P_NONE | ORAT | WRAT | GRAT | LRAT | CRAT | P_RESV | PRBL | P_BHP | P_THP | P_GRUP | P_FLD.
Global Instance pmode_eq_dec : EqDecision pmode. Proof. solve_decision. Defined.
Inductive procedure := NONE_P | RATE_P | WELL_P.
(** ProductionSpecification.hpp:29-39; guide_rate_type_ is never read. *)
Record pspec := PSpec { ps_mode : pmode; ps_proc : procedure; ps_oil : R; ps_water : R; ps_gas : R; ps_liquid : R;
  ps_resv : R; ps_guide : R }.
(** InjectionSpecification.hpp:12-20. *)
Inductive imode := I_NONE | I_RATE | I_RESV | I_BHP | I_THP | I_REIN | I_VREP | I_GRUP | I_FLD.
Global Instance imode_eq_dec : EqDecision imode. Proof. solve_decision. Defined.
(** InjectionSpecification.hpp:29-37. *)
Record ispec := ISpec { is_mode : imode; is_phase : phase; is_surf : R; is_resv : R; is_rein : R; is_vrep : R; is_guide : R }.

(** WellsGroup and WellNode, WellsGroup.hpp:304, 396-399. *)
Inductive node :=
  | Well (ps : pspec) (sp : ispec) (self : nat) (gci : Z) (shut : bool)
  | Group (ps : pspec) (sp : ispec) (children : list node).

Section group.
Context {name_t : Type}.
Notation wells := (wells R name_t).
Variable J : junk R name_t.
Variable pu : phase_usage.
Notation state := (wells * list bool)%type.

Definition pos_of (p : phase) : option nat := pu_pos pu !! phase_index p.
Definition used (p : phase) : option nat := pu_used pu !! phase_index p.

(** rateByMode for production, WellsGroup.cpp:121-146; [rates] are the values
    from the pointer on. *)
Definition rates_sum (rates : list R) : option R :=
  l ← mapM (λ p, rates !! p) (seq 0 (pu_num pu)); Some (foldl Rplus 0 l).
Definition rate_by_pmode (res surf : list R) (m : pmode) : option R :=
  match m with
  | ORAT => p ← pos_of Liquid; surf !! p
  | WRAT => p ← pos_of Aqua; surf !! p
  | GRAT => p ← pos_of Vapour; surf !! p
  | LRAT => p ← pos_of Liquid; x ← surf !! p; q ← pos_of Aqua; y ← surf !! q; Some (x + y)
  | P_RESV => rates_sum res
  | _ => None
  end.
(** rateByMode for injection, WellsGroup.cpp:149-169. *)
Definition rate_by_imode (res surf : list R) (m : imode) : option R :=
  match m with
  | I_RATE => rates_sum surf
  | I_RESV => rates_sum res
  | _ => None
  end.
(** getTarget, WellsGroup.cpp:171-199 and 201-220. *)
Definition ptarget (ps : pspec) (m : pmode) : option R :=
  match m with
  | GRAT => Some (ps_gas ps)
  | WRAT => Some (ps_water ps)
  | ORAT => Some (ps_oil ps)
  | P_RESV => Some (ps_resv ps)
  | LRAT => Some (ps_liquid ps)
  | _ => None
  end.
Definition itarget (sp : ispec) (m : imode) : option R :=
  match m with
  | I_RATE => Some (is_surf sp)
  | I_RESV => Some (is_resv sp)
  | _ => None
  end.

(** What a group control asks for: a production or an injection mode.  The
    functions for the two differ only in the specification they read, in the
    type of the wells, in the sign of the target and in [control_of]. *)
Inductive request := ReqP (m : pmode) | ReqI (m : imode).
Definition wtype_of (rq : request) : wtype := match rq with ReqP _ => PRODUCER | ReqI _ => INJECTOR end.
Definition guide_of (rq : request) (ps : pspec) (sp : ispec) : R :=
  match rq with ReqP _ => ps_guide ps | ReqI _ => is_guide sp end.
Definition is_grup (rq : request) (ps : pspec) (sp : ispec) : bool :=
  match rq with ReqP _ => bool_decide (ps_mode ps = P_GRUP) | ReqI _ => bool_decide (is_mode sp = I_GRUP) end.
Definition is_none (rq : request) (ps : pspec) (sp : ispec) : bool :=
  match rq with ReqP _ => bool_decide (ps_mode ps = P_NONE) | ReqI _ => bool_decide (is_mode sp = I_NONE) end.
Definition is_fld (rq : request) (ps : pspec) (sp : ispec) : bool :=
  match rq with ReqP _ => bool_decide (ps_mode ps = P_FLD) | ReqI _ => bool_decide (is_mode sp = I_FLD) end.
Definition set_pmode (ps : pspec) (m : pmode) : pspec :=
  PSpec m (ps_proc ps) (ps_oil ps) (ps_water ps) (ps_gas ps) (ps_liquid ps) (ps_resv ps) (ps_guide ps).
Definition set_imode (sp : ispec) (m : imode) : ispec :=
  ISpec m (is_phase sp) (is_surf sp) (is_resv sp) (is_rein sp) (is_vrep sp) (is_guide sp).

(** productionGuideRate and injectionGuideRate, WellsGroup.cpp:512-531 and
    946-963. *)
Fixpoint guide_rate (rq : request) (only_group : bool) (n : node) : R :=
  match n with
  | Well ps sp _ _ _ => if negb only_group || is_grup rq ps sp then guide_of rq ps sp else 0
  | Group _ _ ch => foldl (λ s c, s + guide_rate rq only_group c) 0 ch
  end.

(** The control type and distribution for a mode, WellsGroup.cpp:870-913 for
    production and 791-803 for injection. *)
Definition set3 (d : list R) (p : phase) : option (list R) :=
  u ← used p; if decide (u = 0%nat) then None else i ← pos_of p; upd d i 1.
Definition control_of (rq : request) : option (ctype * list R) :=
  match rq with
  | ReqP ORAT => d ← set3 [0; 0; 0] Liquid; Some (SURFACE_RATE, d)
  | ReqP WRAT => d ← set3 [0; 0; 0] Aqua; Some (SURFACE_RATE, d)
  | ReqP GRAT => d ← set3 [0; 0; 0] Vapour; Some (SURFACE_RATE, d)
  | ReqP LRAT => d ← set3 [0; 0; 0] Liquid; d ← set3 d Aqua; Some (SURFACE_RATE, d)
  | ReqP P_RESV => Some (RESERVOIR_RATE, [1; 1; 1])
  | ReqI I_RATE => Some (SURFACE_RATE, [1; 1; 1])
  | ReqI I_RESV => Some (RESERVOIR_RATE, [1; 1; 1])
  | _ => None
  end.

Definition put_ctrl (W : wells) (i : nat) (c : ctrl R) : option wells :=
  cs ← upd (w_ctrls W) i (Some c); Some (set_ctrl W cs).
Definition get_ctrl (W : wells) (i : nat) : option (ctrl R) := oc ← w_ctrls W !! i; oc.
(** Copying three values of which append_well_controls reads the first np. *)
Definition first_np (np : nat) (d : list R) : option (list R) := slice d 0 np.

(** Writing a control in place, WellsGroup.cpp:810-815, 922-927 and 755-760. *)
Definition overwrite_control (wct : ctype) (target : R) (distr : list R) (i : nat) (gci : Z) (W : wells) : option wells :=
  c ← get_ctrl W i;
  let k := Z.to_nat gci in
  ty ← upd (c_type c) k wct;
  tg ← upd (c_target c) k target;
  d ← first_np (w_np W) distr;
  ds ← memcpy (c_distr c) (w_np W * k) d;
  put_ctrl W i (Ctrl (c_num c) ty tg ds (c_current c) (c_cpty c)).
(** The common end of applyInjGroupControl and applyProdGroupControl of a well,
    WellsGroup.cpp:805-817 and 917-929, without the last call: append a control
    or overwrite the one appended before.  The result of append_well_controls
    is not looked at. *)
Definition enter_control (wct : ctype) (target : R) (distr : list R) (i : nat) (gci : Z) (s : state) : option (Z * state) :=
  let '(W, o) := s in
  if decide (gci < 0)%Z then
    d ← first_np (w_np W) distr;
    '(_, W, o) ← append_well_controls 0 (-1) J wct target (Some d) i W o;
    c ← get_ctrl W i;
    Some (Z.of_nat (c_num c) - 1, (W, o))%Z
  else
    W ← overwrite_control wct target distr i gci W;
    Some (gci, (W, o)).

(** WellNode::applyProdGroupControl, WellsGroup.cpp:854-930, and
    applyInjGroupControl, 778-818. *)
Definition apply_well (rq : request) (target : R) (forced : bool) (ps : pspec) (sp : ispec) (self : nat) (gci : Z) (shut : bool)
    (s : state) : option (node * state) :=
  let this := Well ps sp self gci shut in
  if negb forced && (negb (is_grup rq ps sp) && negb (is_none rq ps sp)) then Some (this, s) else
  ty ← w_type s.1 !! self;
  if decide (ty = wtype_of rq) then
    '(wct, distr) ← control_of rq;
    '(gci, s) ← enter_control wct (match rq with ReqP _ => - target | ReqI _ => target end) distr self gci s;
    W ← set_current_control self gci s.1;
    Some (Well ps sp self gci shut, (W, s.2))
  else if Req_EM_T target 0 then Some (this, s) else None.

(** WellsGroup::applyProdGroupControl, WellsGroup.cpp:283-301, and
    applyInjGroupControl, 259-276; apply_well for wells. *)
Fixpoint apply_control (rq : request) (target : R) (forced : bool) (n : node) (s : state) {struct n} : option (node * state) :=
  match n with
  | Well ps sp self gci shut => apply_well rq target forced ps sp self gci shut s
  | Group ps sp ch =>
    if forced || is_fld rq ps sp || is_none rq ps sp then
      let my_guide_rate := guide_rate rq (negb forced) n in
      if Req_EM_T my_guide_rate 0 then Some (n, s) else
      '(ch, s) ← (fix go (l : list node) (s : state) : option (list node * state) :=
        match l with
        | [] => Some ([], s)
        | c :: l =>
          child_target ← rdiv (target * guide_rate rq (negb forced) c) my_guide_rate;
          '(c, s) ← apply_control rq child_target true c s;
          '(l, s) ← go l s;
          Some (c :: l, s)
        end) ch s;
      Some (match rq with ReqP _ => Group (set_pmode ps P_FLD) sp ch | ReqI _ => Group ps (set_imode sp I_FLD) ch end, s)
    else Some (n, s)
  end.

(** The loops over the children in applyProdGroupControls,
    applyInjGroupControls and applyExplicitReinjectionControls,
    WellsGroup.cpp:451-459, 482-490, 577-592 and 607-615: [total] is
    distributed by the guide rates of wells under group control. *)
Fixpoint share_out (rq : request) (my_guide_rate total : R) (l : list node) (s : state) : option (list node * state) :=
  match l with
  | [] => Some ([], s)
  | c :: l =>
    q ← rdiv (guide_rate rq true c) my_guide_rate;
    '(c, s) ← apply_control rq (q * total) false c s;
    '(l, s) ← share_out rq my_guide_rate total l s;
    Some (c :: l, s)
  end.

(** applyProdGroupControls, WellsGroup.cpp:438-472 and 933-936. *)
Fixpoint apply_prod_controls (n : node) (s : state) {struct n} : option (node * state) :=
  match n with
  | Well _ _ _ _ _ => Some (n, s)
  | Group ps sp ch =>
    match ps_mode ps with
    | ORAT | WRAT | LRAT | P_RESV =>
      let m := ps_mode ps in
      let my_guide_rate := guide_rate (ReqP m) true n in
      if Req_EM_T my_guide_rate 0 then None else
      t ← ptarget ps m;
      '(ch, s) ← share_out (ReqP m) my_guide_rate t ch s;
      Some (Group ps sp ch, s)
    | P_FLD | P_NONE =>
      '(ch, s) ← (fix go (l : list node) (s : state) : option (list node * state) :=
        match l with
        | [] => Some ([], s)
        | c :: l => '(c, s) ← apply_prod_controls c s; '(l, s) ← go l s; Some (c :: l, s)
        end) ch s;
      Some (Group ps sp ch, s)
    | _ => None
    end
  end.
(** applyInjGroupControls, WellsGroup.cpp:474-507 and 938-941. *)
Fixpoint apply_inj_controls (n : node) (s : state) {struct n} : option (node * state) :=
  match n with
  | Well _ _ _ _ _ => Some (n, s)
  | Group ps sp ch =>
    match is_mode sp with
    | I_RATE | I_RESV =>
      let m := is_mode sp in
      let my_guide_rate := guide_rate (ReqI m) true n in
      t ← itarget sp m;
      '(ch, s) ← share_out (ReqI m) my_guide_rate t ch s;
      Some (Group ps sp ch, s)
    | I_VREP | I_REIN => Some (n, s)
    | I_FLD | I_NONE =>
      '(ch, s) ← (fix go (l : list node) (s : state) : option (list node * state) :=
        match l with
        | [] => Some ([], s)
        | c :: l => '(c, s) ← apply_inj_controls c s; '(l, s) ← go l s; Some (c :: l, s)
        end) ch s;
      Some (Group ps sp ch, s)
    | _ => None
    end
  end.
(** WellCollection::applyGroupControls, WellCollection.cpp:148-154. *)
Fixpoint apply_group_controls (roots : list node) (s : state) : option (list node * state) :=
  match roots with
  | [] => Some ([], s)
  | n :: roots =>
    '(n, s) ← apply_prod_controls n s;
    '(n, s) ← apply_inj_controls n s;
    '(roots, s) ← apply_group_controls roots s;
    Some (n :: roots, s)
  end.

(** getTotalProductionFlow, WellsGroup.cpp:539-547 and 827-834. *)
Fixpoint total_production (flows : list R) (p : phase) (W : wells) (n : node) {struct n} : option R :=
  match n with
  | Well _ _ self _ _ =>
    ty ← w_type W !! self;
    if decide (ty = INJECTOR) then Some 0 else i ← pos_of p; flows !! (self * pu_num pu + i)%nat
  | Group _ _ ch =>
    (fix go (l : list node) (sum : R) : option R :=
      match l with
      | [] => Some sum
      | c :: l => x ← total_production flows p W c; go l (sum + x)
      end) ch 0
  end.
(** applyExplicitReinjectionControls, WellsGroup.cpp:558-619 and 849-853, for
    the build without DIRTY_WELLCTRL_HACK. *)
Definition add_used (flows : list R) (W : wells) (n : node) (p : phase) (sum : R) : option R :=
  u ← used p; if decide (u = 0%nat) then Some sum else x ← total_production flows p W n; Some (sum + x).
Definition apply_reinjection (res surf : list R) (n : node) (s : state) : option (node * state) :=
  match n with
  | Well _ _ _ _ _ => Some (n, s)
  | Group ps sp ch =>
    match is_mode sp with
    | I_REIN =>
      total_produced ← total_production surf (is_phase sp) s.1 n;
      '(ch, s) ← share_out (ReqI I_RATE) (guide_rate (ReqI I_RATE) true n) (- total_produced * is_rein sp) ch s;
      Some (Group ps sp ch, s)
    | I_VREP =>
      x ← add_used res s.1 n Aqua 0;
      x ← add_used res s.1 n Liquid x;
      x ← add_used res s.1 n Vapour x;
      '(ch, s) ← share_out (ReqI I_RESV) (guide_rate (ReqI I_RESV) true n) (- x * is_vrep sp) ch s;
      Some (Group ps sp ch, s)
    | _ => Some (n, s)
    end
  end.

(** ** Constraint checks *)
(** WellPhasesSummed, WellsGroup.hpp:34-43 and WellsGroup.cpp:31-50. *)
Record summed := Summed { sm_res_inj : list R; sm_res_prod : list R; sm_surf_inj : list R; sm_surf_prod : list R }.
Definition summed0 : summed := Summed [0; 0; 0] [0; 0; 0] [0; 0; 0] [0; 0; 0].
Definition add3 (a b : list R) : list R := zip_with Rplus a b.
Definition summed_add (a b : summed) : summed :=
  Summed (add3 (sm_res_inj a) (sm_res_inj b)) (add3 (sm_res_prod a) (sm_res_prod b))
         (add3 (sm_surf_inj a) (sm_surf_inj b)) (add3 (sm_surf_prod a) (sm_surf_prod b)).

(** Is control [k] of the well violated?  WellsGroup.cpp:662-704. *)
Definition weighted (np k self : nat) (distr rates : list R) : option R :=
  l ← mapM (λ p, d ← distr !! (np * k + p)%nat; r ← rates !! (np * self + p)%nat; Some (d * r)) (seq 0 np);
  Some (foldl Rplus 0 l).
Definition ctrl_violated (bhp res surf : list R) (self : nat) (ty : wtype) (c : ctrl R) (k : nat) : option bool :=
  let np := pu_num pu in
  t ← c_type c !! k;
  target ← c_target c !! k;
  match t with
  | BHP =>
    b ← bhp !! self;
    Some (if decide (ty = PRODUCER) then (if Rgt_dec target b then true else false)
          else (if Rlt_dec target b then true else false))
  | RESERVOIR_RATE =>
    r ← weighted np k self (c_distr c) res;
    Some (if Rgt_dec (Rabs r - Rabs target) (Rmax (Rabs r) (Rabs target) * (1 / 1000000)) then true else false)
  | SURFACE_RATE =>
    r ← weighted np k self (c_distr c) surf;
    Some (if Rgt_dec (Rabs r) (Rabs target) then true else false)
  end.
(** The loop over the controls, WellsGroup.cpp:656-709: [Some k] is the control
    switched to. *)
Fixpoint find_violated (bhp res surf : list R) (self : nat) (gci : Z) (ty : wtype) (c : ctrl R) (m k : nat) : option (option nat) :=
  match m with
  | 0%nat => Some None
  | S m =>
    if decide (Z.of_nat k = c_current c ∨ Z.of_nat k = gci) then find_violated bhp res surf self gci ty c m (k + 1)
    else
      v ← ctrl_violated bhp res surf self ty c k;
      if (v : bool) then Some (Some k) else find_violated bhp res surf self gci ty c m (k + 1)
  end.
(** The report of the rates, WellsGroup.cpp:642-651. *)
Definition report (res surf : list R) (self : nat) (ty : wtype) (sm : summed) : option summed :=
  let np := pu_num pu in
  r ← slice res (np * self) np;
  q ← slice surf (np * self) np;
  if decide (ty = INJECTOR) then
    a ← memcpy (sm_res_inj sm) 0 r; b ← memcpy (sm_surf_inj sm) 0 q;
    Some (Summed a (sm_res_prod sm) b (sm_surf_prod sm))
  else
    a ← memcpy (sm_res_prod sm) 0 r; b ← memcpy (sm_surf_prod sm) 0 q;
    Some (Summed (sm_res_inj sm) a (sm_surf_inj sm) b).
(** WellNode::conditionsMet, WellsGroup.cpp:636-711. *)
Definition well_conditions (bhp res surf : list R) (self : nat) (gci : Z) (sm : summed) (W : wells) : option (bool * summed * wells) :=
  ty ← w_type W !! self;
  sm ← report res surf self ty sm;
  c ← get_ctrl W self;
  r ← find_violated bhp res surf self gci ty c (c_num c) 0;
  match r with
  | Some k => W ← set_current_control self (Z.of_nat k) W; Some (false, sm, W)
  | None => Some (true, sm, W)
  end.

(** getWorstOffending, WellsGroup.cpp:422-436 and 766-776; the pair starts as
    (NULL, 0). *)
Fixpoint worst_offending (res surf : list R) (m : pmode) (n : node) {struct n} : option (option (list nat) * R) :=
  match n with
  | Well _ _ self _ _ =>
    let index := (self * pu_num pu)%nat in
    if decide (index < length res ∧ index < length surf)%nat then
      r ← rate_by_pmode (drop index res) (drop index surf) m; Some (Some [], r)
    else None
  | Group _ _ ch =>
    (fix go (l : list node) (i : nat) (mx : option (list nat) * R) : option (option (list nat) * R) :=
      match l with
      | [] => Some mx
      | c :: l =>
        '(p, r) ← worst_offending res surf m c;
        go l (i + 1)%nat (if decide (i = 0%nat) then (cons i <$> p, r) else if Rlt_dec mx.2 r then (cons i <$> p, r) else mx)
      end) ch 0%nat (None, 0)
  end.
(** WellNode::shutWell, WellsGroup.cpp:739-764; [~] is [Z.lnot]. *)
Definition shut_well (self : nat) (gci : Z) (shut : bool) (s : state) : option (Z * state) :=
  '(gci, s) ← (if shut then Some (gci, s) else enter_control SURFACE_RATE 0 [1; 1; 1] self gci s);
  c ← get_ctrl s.1 self;
  W ← put_ctrl s.1 self (Ctrl (c_num c) (c_type c) (c_target c) (c_distr c) (Z.lnot (c_current c)) (c_cpty c));
  Some (gci, (W, s.2)).
(** Shutting the well a pointer leads to. *)
Fixpoint shut_at (p : list nat) (n : node) (s : state) {struct p} : option (node * state) :=
  match p, n with
  | [], Well ps sp self gci shut => '(gci, s) ← shut_well self gci shut s; Some (Well ps sp self gci shut, s)
  | i :: p, Group ps sp ch => c ← ch !! i; '(c, s) ← shut_at p c s; Some (Group ps sp (<[i := c]> ch), s)
  | _, _ => None
  end.

(** The loop over the injection modes, WellsGroup.cpp:323-347: the first mode
    violated with its target. *)
Fixpoint inj_violated (sp : ispec) (sm : summed) (ms : list imode) : option (option (imode * R)) :=
  match ms with
  | [] => Some None
  | m :: ms =>
    if decide (is_mode sp = m) then inj_violated sp sm ms else
    t ← itarget sp m;
    if Rge_dec t 0 then
      r ← rate_by_imode (sm_res_inj sm) (sm_surf_inj sm) m;
      if Rgt_dec r t then Some (Some (m, t)) else inj_violated sp sm ms
    else inj_violated sp sm ms
  end.
(** The loop over the production modes, WellsGroup.cpp:353-379. *)
Fixpoint prod_violated (ps : pspec) (sm : summed) (ms : list pmode) : option (option (pmode * R)) :=
  match ms with
  | [] => Some None
  | m :: ms =>
    if decide (ps_mode ps = m) then prod_violated ps sm ms else
    t ← ptarget ps m;
    if Rge_dec t 0 then
      r ← rate_by_pmode (sm_res_prod sm) (sm_surf_prod sm) m;
      if Rgt_dec (Rabs r) t then Some (Some (m, t)) else prod_violated ps sm ms
    else prod_violated ps sm ms
  end.
(** What a group does after its children, WellsGroup.cpp:320-400; [sm] are the
    rates of the children. *)
Definition group_conditions (res surf : list R) (n : node) (sm : summed) (s : state) : option (bool * node * state) :=
  match n with
  | Well _ _ _ _ _ => None
  | Group ps sp ch =>
    iv ← inj_violated sp sm [I_RATE; I_RESV];
    match iv with
    | Some (m, t) =>
      '(n, s) ← apply_control (ReqI m) t true n s;
      match n with
      | Group ps sp ch => Some (false, Group ps (set_imode sp m) ch, s)
      | _ => None
      end
    | None =>
      pv ← prod_violated ps sm [ORAT; WRAT; GRAT; LRAT; P_RESV];
      match pv with
      | Some (m, t) =>
        match ps_proc ps with
        | WELL_P => '(p, _) ← worst_offending res surf m n; p ← p; '(n, s) ← shut_at p n s; Some (false, n, s)
        | RATE_P => '(n, s) ← apply_control (ReqP m) t true n s; Some (false, n, s)
        | NONE_P => Some (false, n, s)
        end
      | None => Some (true, n, s)
      end
    end
  end.
(** conditionsMet, WellsGroup.cpp:304-402 and 636-711; [sm] is the argument
    summed_phases. *)
Fixpoint conditions_met (bhp res surf : list R) (n : node) (sm : summed) (s : state) {struct n} : option (bool * summed * node * state) :=
  match n with
  | Well ps sp self gci shut =>
    '(b, sm, W) ← well_conditions bhp res surf self gci sm s.1;
    Some (b, sm, n, (W, s.2))
  | Group ps sp ch =>
    '(b, csm, ch, s) ← (fix go (l : list node) (csm : summed) (s : state) : option (bool * summed * list node * state) :=
      match l with
      | [] => Some (true, csm, [], s)
      | c :: l =>
        '(b, x, c, s) ← conditions_met bhp res surf c summed0 s;
        if (b : bool) then
          '(b, csm, l, s) ← go l (summed_add csm x) s;
          Some (b, csm, c :: l, s)
        else Some (false, csm, c :: l, s)
      end) ch summed0 s;
    if (b : bool) then
      '(b, n, s) ← group_conditions res surf (Group ps sp ch) csm s;
      Some (b, if (b : bool) then summed_add sm csm else sm, n, s)
    else Some (false, sm, Group ps sp ch, s)
  end.
(** WellCollection::conditionsMet, WellCollection.cpp:126-140. *)
Fixpoint all_conditions_met (bhp res surf : list R) (roots : list node) (s : state) : option (bool * list node * state) :=
  match roots with
  | [] => Some (true, [], s)
  | n :: roots =>
    '(b, _, n, s) ← conditions_met bhp res surf n summed0 s;
    if (b : bool) then '(b, roots, s) ← all_conditions_met bhp res surf roots s; Some (b, n :: roots, s)
    else Some (false, n :: roots, s)
  end.
End group.
