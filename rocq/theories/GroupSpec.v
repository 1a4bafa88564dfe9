(** Vocabulary for group controls, in terms of the wells a client sees
    (WellsSpec.v) and the wells of a tree. *)
From Coq Require Import Reals.
From Verif Require Import Base WellsModel WellsSpec PhaseModel TofSpec GroupModel.
Local Open Scope R_scope.

(** The wells of a tree, from left to right. *)
Record leaf := Leaf { l_ps : pspec; l_sp : ispec; l_self : nat; l_gci : Z; l_shut : bool }.
Fixpoint leaves (n : node) : list leaf :=
  match n with
  | Well ps sp self gci shut => [Leaf ps sp self gci shut]
  | Group _ _ ch => concat (map leaves ch)
  end.
(** A tree without the modes of its groups and the numbers of the group
    controls: what a group control must not change. *)
Fixpoint strip (rq : request) (n : node) : node :=
  match n with
  | Well ps sp self _ shut => Well ps sp self (-1) shut
  | Group ps sp ch =>
    match rq with
    | ReqP _ => Group (set_pmode ps P_FLD) sp (map (strip rq) ch)
    | ReqI _ => Group ps (set_imode sp I_FLD) (map (strip rq) ch)
    end
  end.
Definition guide (rq : request) (lf : leaf) : R := guide_of rq (l_ps lf) (l_sp lf).
Definition under_group (rq : request) (lf : leaf) : Prop :=
  match rq with ReqP _ => ps_mode (l_ps lf) = P_GRUP | ReqI _ => is_mode (l_sp lf) = I_GRUP end.
(** A group that takes part in the control of its parent. *)
Definition free_group (rq : request) (n : node) : Prop :=
  match n with
  | Well _ _ _ _ _ => True
  | Group ps sp _ => match rq with ReqP _ => ps_mode ps = P_FLD ∨ ps_mode ps = P_NONE | ReqI _ => is_mode sp = I_FLD ∨ is_mode sp = I_NONE end
  end.

Section spec.
Context {name_t : Type}.
Notation awell := (awell R name_t).

(** The tree fits the wells: distinct wells, all existing, and the control
    entered for the group, if any, exists. *)
Record fits (a : list (awell * bool)) (l : list leaf) : Prop := {
  ft_nodup : NoDup (l_self <$> l);
  ft_well : ∀ lf, lf ∈ l → ∃ w cl, a !! l_self lf = Some (w, cl) ∧ (l_gci lf < Z.of_nat (length (aw_ctrls w)))%Z }.

(** What production and injection controls mean: the kind of rate, the phases
    counted, the sign (production is negative). *)
Definition counted (rq : request) (p : phase) : bool :=
  match rq, p with
  | ReqP ORAT, Liquid | ReqP WRAT, Aqua | ReqP GRAT, Vapour | ReqP LRAT, Liquid | ReqP LRAT, Aqua => true
  | ReqP P_RESV, _ | ReqI _, _ => true
  | _, _ => false
  end.
Definition rate_kind (rq : request) : ctype := match rq with ReqP P_RESV | ReqI I_RESV => RESERVOIR_RATE | _ => SURFACE_RATE end.
Definition rate_sign (rq : request) : R := match rq with ReqP _ => -1 | ReqI _ => 1 end.
(** The control is one for rate [t]. *)
Definition controls_rate (pu : phase_usage) (rq : request) (t : R) (c : actrl R) : Prop :=
  ac_type c = rate_kind rq ∧ ac_target c = rate_sign rq * t ∧ length (ac_distr c) = pu_num pu ∧
  ∀ p i, pu_used pu !! phase_index p = Some 1%nat → pu_pos pu !! phase_index p = Some i →
    ac_distr c !! i = Some (if counted rq p then 1 else 0).
(** The request can be met by the phases: exactly the rate modes, with the
    phases they count active where the mode names them. *)
Definition can_request (pu : phase_usage) (rq : request) : Prop :=
  match rq with
  | ReqP ORAT | ReqP WRAT | ReqP GRAT | ReqP LRAT => ∀ p, counted rq p = true → pu_used pu !! phase_index p = Some 1%nat
  | ReqP P_RESV | ReqI I_RATE | ReqI I_RESV => True
  | _ => False
  end.

(** Well [w'] is [w] but for an additional or overwritten group control, which
    is the current one. *)
Definition controlled (gci gci' : Z) (w w' : awell) (c : actrl R) : Prop :=
  (aw_type w' = aw_type w ∧ aw_depth w' = aw_depth w ∧ aw_frac w' = aw_frac w ∧ aw_perfs w' = aw_perfs w ∧ aw_name w' = aw_name w) ∧
  aw_current w' = gci' ∧ aw_ctrls w' !! Z.to_nat gci' = Some c ∧ (0 <= gci')%Z ∧
  if decide (gci < 0)%Z then gci' = Z.of_nat (length (aw_ctrls w)) ∧ aw_ctrls w' = aw_ctrls w ++ [c]
  else gci' = gci ∧ aw_ctrls w' = <[Z.to_nat gci := c]> (aw_ctrls w).

(** The guide rate of a well under group control; other wells have none. *)
Global Instance under_group_dec rq lf : Decision (under_group rq lf).
Proof. destruct rq; cbn; apply _. Defined.
Definition group_guide (rq : request) (lf : leaf) : R := if decide (under_group rq lf) then guide rq lf else 0.

(** Well [lf], one of the wells [l] among which rate [t] is distributed by the
    guide rates [g], has got its share; a well without guide rate is left alone
    or asked for nothing. *)
Definition answered (pu : phase_usage) (rq : request) (g : leaf → R) (t : R) (l : list leaf) (a a' : list (awell * bool)) (lf lf' : leaf) : Prop :=
  ∃ gci' w w' cl, lf' = Leaf (l_ps lf) (l_sp lf) (l_self lf) gci' (l_shut lf) ∧
    a !! l_self lf = Some (w, cl) ∧ a' !! l_self lf = Some (w', cl) ∧
    (g lf ≠ 0 → ∃ c, controlled (l_gci lf) gci' w w' c ∧ controls_rate pu rq (t * g lf / rsum g l) c) ∧
    (g lf = 0 → (gci' = l_gci lf ∧ w' = w) ∨ ∃ c, controlled (l_gci lf) gci' w w' c ∧ controls_rate pu rq 0 c).
(** Rate [t] has been distributed among the wells [l], now [l'], and the wells
    of other groups have not been touched. *)
Definition distributed (pu : phase_usage) (rq : request) (g : leaf → R) (t : R) (l l' : list leaf) (a a' : list (awell * bool)) : Prop :=
  Forall2 (answered pu rq g t l a a') l l' ∧
  rsum (λ lf, t * g lf / rsum g l) l = t ∧
  ∀ i, i ∉ (l_self <$> l) → a' !! i = a !! i.

(** What is needed of the wells to be distributed to. *)
Record ready (pu : phase_usage) (rq : request) (g : leaf → R) (l : list leaf) (a : list (awell * bool)) : Prop := {
  rd_request : can_request pu rq;
  rd_nonneg : ∀ lf, lf ∈ l → 0 <= g lf;
  rd_some : rsum g l ≠ 0;
  rd_type : ∀ lf w cl, lf ∈ l → g lf ≠ 0 → a !! l_self lf = Some (w, cl) → aw_type w = wtype_of rq }.
(** A child of a controlling group: a well, or a group without a control of its
    own whose wells are under group control or have guide rate zero. *)
Definition obedient (rq : request) (n : node) : Prop :=
  match n with
  | Well _ _ _ _ _ => True
  | Group _ _ _ => free_group rq n ∧ ∀ lf, lf ∈ leaves n → under_group rq lf ∨ guide rq lf = 0
  end.

(** The rate a group controls, if it has the mode of a rate; the groups whose
    children are looked at instead. *)
Definition production_rate (ps : pspec) (sp : ispec) : option (request * R) :=
  match ps_mode ps with
  | ORAT => Some (ReqP ORAT, ps_oil ps)
  | WRAT => Some (ReqP WRAT, ps_water ps)
  | LRAT => Some (ReqP LRAT, ps_liquid ps)
  | P_RESV => Some (ReqP P_RESV, ps_resv ps)
  | _ => None
  end.
Definition production_open (ps : pspec) (sp : ispec) : Prop := ps_mode ps = P_FLD ∨ ps_mode ps = P_NONE.
Definition production_left (ps : pspec) (sp : ispec) : Prop := False.
Definition injection_rate (ps : pspec) (sp : ispec) : option (request * R) :=
  match is_mode sp with
  | I_RATE => Some (ReqI I_RATE, is_surf sp)
  | I_RESV => Some (ReqI I_RESV, is_resv sp)
  | _ => None
  end.
Definition injection_open (ps : pspec) (sp : ispec) : Prop := is_mode sp = I_FLD ∨ is_mode sp = I_NONE.
(** Reinjection and voidage replacement are left to applyExplicitReinjectionControls. *)
Definition injection_left (ps : pspec) (sp : ispec) : Prop := is_mode sp = I_REIN ∨ is_mode sp = I_VREP.

(** The outcome for a tree: for the topmost groups with the mode of a rate the
    rate has been distributed among the wells under group control, all other
    wells are left alone. *)
Inductive outcome (pu : phase_usage) (rate : pspec → ispec → option (request * R)) (open left : pspec → ispec → Prop)
    (a a' : list (awell * bool)) : node → node → Prop :=
  | oc_well ps sp self gci shut : a' !! self = a !! self → outcome pu rate open left a a' (Well ps sp self gci shut) (Well ps sp self gci shut)
  | oc_rate ps sp ch ch' rq t : rate ps sp = Some (rq, t) →
      map (strip rq) ch' = map (strip rq) ch →
      Forall2 (answered pu rq (group_guide rq) t (leaves (Group ps sp ch)) a a') (leaves (Group ps sp ch)) (leaves (Group ps sp ch')) →
      rsum (λ lf, t * group_guide rq lf / rsum (group_guide rq) (leaves (Group ps sp ch))) (leaves (Group ps sp ch)) = t →
      outcome pu rate open left a a' (Group ps sp ch) (Group ps sp ch')
  | oc_left ps sp ch : left ps sp → (∀ lf, lf ∈ leaves (Group ps sp ch) → a' !! l_self lf = a !! l_self lf) →
      outcome pu rate open left a a' (Group ps sp ch) (Group ps sp ch)
  | oc_open ps sp ch ch' : open ps sp → Forall2 (outcome pu rate open left a a') ch ch' →
      outcome pu rate open left a a' (Group ps sp ch) (Group ps sp ch').
(** The trees for which this is asked. *)
Inductive governed (pu : phase_usage) (rate : pspec → ispec → option (request * R)) (open left : pspec → ispec → Prop)
    (a : list (awell * bool)) : node → Prop :=
  | gv_well ps sp self gci shut : governed pu rate open left a (Well ps sp self gci shut)
  | gv_rate ps sp ch rq t : rate ps sp = Some (rq, t) → Forall (obedient rq) ch → 
      ready pu rq (group_guide rq) (leaves (Group ps sp ch)) a → governed pu rate open left a (Group ps sp ch)
  | gv_left ps sp ch : left ps sp → governed pu rate open left a (Group ps sp ch)
  | gv_open ps sp ch : open ps sp → Forall (governed pu rate open left a) ch → governed pu rate open left a (Group ps sp ch).

(** ** Constraints of a well *)
(** The rate a control counts. *)
Definition counted_rate (np self : nat) (c : actrl R) (rates : list R) : R :=
  rsum (λ p, default 0 (ac_distr c !! p) * default 0 (rates !! (np * self + p)%nat)) (seq 0 np).
Definition violated (np : nat) (bhp res surf : list R) (self : nat) (w : awell) (c : actrl R) : Prop :=
  match ac_type c with
  | BHP => match aw_type w with PRODUCER => default 0 (bhp !! self) < ac_target c | INJECTOR => ac_target c < default 0 (bhp !! self) end
  | RESERVOIR_RATE => let r := counted_rate np self c res in
      Rabs r - Rabs (ac_target c) > Rmax (Rabs r) (Rabs (ac_target c)) / 1000000
  | SURFACE_RATE => Rabs (counted_rate np self c surf) > Rabs (ac_target c)
  end.
(** A control that is checked: neither the current one nor the group's. *)
Definition checked (gci : Z) (w : awell) (k : nat) : Prop := Z.of_nat k ≠ aw_current w ∧ Z.of_nat k ≠ gci.

(** All checked controls of a well are observed. *)
Definition observes (np : nat) (bhp res surf : list R) (self : nat) (gci : Z) (w : awell) : Prop :=
  ∀ k c, aw_ctrls w !! k = Some c → checked gci w k → ¬ violated np bhp res surf self w c.

(** ** Limits of a group *)
(** The rate a mode is about, given the rates of the phases by position, at
    reservoir and at surface conditions. *)
Definition mode_rate (pu : phase_usage) (m : pmode) (res surf : nat → R) : R :=
  let phase_rate p := match pu_pos pu !! phase_index p with Some i => surf i | None => 0 end in
  match m with
  | ORAT => phase_rate Liquid
  | WRAT => phase_rate Aqua
  | GRAT => phase_rate Vapour
  | LRAT => phase_rate Liquid + phase_rate Aqua
  | P_RESV => rsum res (seq 0 (pu_num pu))
  | _ => 0
  end.
Definition imode_rate (pu : phase_usage) (m : imode) (res surf : nat → R) : R :=
  match m with
  | I_RATE => rsum surf (seq 0 (pu_num pu))
  | I_RESV => rsum res (seq 0 (pu_num pu))
  | _ => 0
  end.
Definition prod_limit (ps : pspec) (m : pmode) : option R :=
  match m with
  | ORAT => Some (ps_oil ps)
  | WRAT => Some (ps_water ps)
  | GRAT => Some (ps_gas ps)
  | LRAT => Some (ps_liquid ps)
  | P_RESV => Some (ps_resv ps)
  | _ => None
  end.
Definition inj_limit (sp : ispec) (m : imode) : option R :=
  match m with I_RATE => Some (is_surf sp) | I_RESV => Some (is_resv sp) | _ => None end.
(** The rate of the phase at a position for one well, and for all producers or
    all injectors of a tree. *)
Definition at_well (np self : nat) (rates : list R) (i : nat) : R := default 0 (rates !! (np * self + i)%nat).
Definition has_type (a : list (awell * bool)) (ty : wtype) (lf : leaf) : bool :=
  match a !! l_self lf with Some (w, _) => bool_decide (aw_type w = ty) | None => false end.
Definition total (np : nat) (a : list (awell * bool)) (ty : wtype) (rates : list R) (l : list leaf) (i : nat) : R :=
  rsum (λ lf, if has_type a ty lf then at_well np (l_self lf) rates i else 0) l.
Definition well_rate (pu : phase_usage) (m : pmode) (res surf : list R) (lf : leaf) : R :=
  mode_rate pu m (at_well (pu_num pu) (l_self lf) res) (at_well (pu_num pu) (l_self lf) surf).
(** A limit that is not the group's own control is exceeded. *)
Definition exceeds_prod (pu : phase_usage) (a : list (awell * bool)) (res surf : list R) (ps : pspec) (l : list leaf) (m : pmode) (t : R) : Prop :=
  prod_limit ps m = Some t ∧ ps_mode ps ≠ m ∧ 0 <= t ∧
  t < Rabs (mode_rate pu m (total (pu_num pu) a PRODUCER res l) (total (pu_num pu) a PRODUCER surf l)).
Definition exceeds_inj (pu : phase_usage) (a : list (awell * bool)) (res surf : list R) (sp : ispec) (l : list leaf) (m : imode) (t : R) : Prop :=
  inj_limit sp m = Some t ∧ is_mode sp ≠ m ∧ 0 <= t ∧
  t < imode_rate pu m (total (pu_num pu) a INJECTOR res l) (total (pu_num pu) a INJECTOR surf l).
(** All wells observe their controls and no group exceeds a limit. *)
Inductive satisfied (pu : phase_usage) (bhp res surf : list R) (a : list (awell * bool)) : node → Prop :=
  | sf_well ps sp self gci shut : (∀ w cl, a !! self = Some (w, cl) → observes (pu_num pu) bhp res surf self gci w) →
      satisfied pu bhp res surf a (Well ps sp self gci shut)
  | sf_group ps sp ch : Forall (satisfied pu bhp res surf a) ch →
      (∀ m t, ¬ exceeds_inj pu a res surf sp (leaves (Group ps sp ch)) m t) →
      (∀ m t, ¬ exceeds_prod pu a res surf ps (leaves (Group ps sp ch)) m t) →
      satisfied pu bhp res surf a (Group ps sp ch).
(** There is a value for every well and phase. *)
Definition measured (np : nat) (bhp res surf : list R) (l : list leaf) : Prop :=
  ∀ lf, lf ∈ l → (l_self lf < length bhp)%nat ∧ (np * l_self lf + np <= length res)%nat ∧ (np * l_self lf + np <= length surf)%nat.
(** Production limits are set for active phases only. *)
Inductive sensible (pu : phase_usage) : node → Prop :=
  | ss_well ps sp self gci shut : sensible pu (Well ps sp self gci shut)
  | ss_group ps sp ch : Forall (sensible pu) ch → (∀ m t, prod_limit ps m = Some t → 0 <= t → can_request pu (ReqP m)) →
      sensible pu (Group ps sp ch).
(** The order in which the limits are looked at. *)
Definition prod_order : list pmode := [ORAT; WRAT; GRAT; LRAT; P_RESV].
Definition inj_order : list imode := [I_RATE; I_RESV].
Definition first_exceeded {M} (order : list M) (exceeds : M → R → Prop) (m : M) (t : R) : Prop :=
  exceeds m t ∧ ∃ before after, order = before ++ m :: after ∧ ∀ m' t', m' ∈ before → ¬ exceeds m' t'.
(** The well a path of child numbers leads to. *)
Fixpoint well_at (p : list nat) (n : node) : option leaf :=
  match p, n with
  | [], Well ps sp self gci shut => Some (Leaf ps sp self gci shut)
  | i :: p, Group _ _ ch => match ch !! i with Some c => well_at p c | None => None end
  | _, _ => None
  end.
(** No group is empty. *)
Inductive populated : node → Prop :=
  | pp_well ps sp self gci shut : populated (Well ps sp self gci shut)
  | pp_group ps sp ch : ch ≠ [] → Forall populated ch → populated (Group ps sp ch).
(** Well [w'] is [w] shut, which is encoded by the complement of its current
    control (ifs_tpfa.c:557 and WellState.hpp:46 take a negative one for shut). *)
Definition toggled (w : awell) : awell :=
  AWell (aw_type w) (aw_depth w) (aw_frac w) (aw_perfs w) (aw_name w) (aw_ctrls w) (- aw_current w - 1)%Z.
(** The production of a phase, which is negative. *)
Definition produced (pu : phase_usage) (a : list (awell * bool)) (rates : list R) (p : phase) (l : list leaf) : R :=
  match pu_pos pu !! phase_index p with Some i => total (pu_num pu) a PRODUCER rates l i | None => 0 end.

(** The phase usage is one that can come out of a deck (see C46). *)
Record pu_ok (pu : phase_usage) : Prop := {
  pk_num : (pu_num pu <= 3)%nat;
  pk_pos : ∀ p i, pu_used pu !! phase_index p = Some 1%nat → pu_pos pu !! phase_index p = Some i → (i < pu_num pu)%nat;
  pk_all : ∀ p, ∃ u i, pu_used pu !! phase_index p = Some u ∧ pu_pos pu !! phase_index p = Some i ∧ (i < 3)%nat ∧ (u = 0 ∨ u = 1)%nat;
  pk_inj : ∀ p q i, pu_used pu !! phase_index p = Some 1%nat → pu_used pu !! phase_index q = Some 1%nat →
    pu_pos pu !! phase_index p = Some i → pu_pos pu !! phase_index q = Some i → p = q }.
End spec.
