(** Group controls and constraint checks (C40, C41, C42).

    The wells are described by a list [a] as in WellsProps.v: [rel 0 W a] holds
    of every structure built by the functions of wells.h (reachable_rel) and
    says that a client sees exactly [a.*1] (rel_view).  Memory is available (the
    allocation oracle is empty) except where said otherwise. *)
From Coq Require Import Reals Lra Psatz.
From Verif Require Import Base WellsModel WellsSpec WellsProof PhaseModel PhaseProps TableModel UTableProof TofSpec TofProof AccProof
  GroupModel GroupSpec GroupProof GroupCheck.
Local Open Scope R_scope.
Unset Default Proof Using.

(** The usages that come out of a deck are good. *)
Lemma deck_usage_ok has ju jp pu : length ju = 3%nat → length jp = 3%nat → phase_usage_from_deck ju jp has = Some pu → pu_ok pu ∧ (0 < pu_num pu)%nat.
Proof.
  intros Hu Hp. destruct ju as [|u0 [|u1 [|u2 [|]]]]; try done. destruct jp as [|p0 [|p1 [|p2 [|]]]]; try done.
  unfold phase_usage_from_deck. destruct (has WATER), (has OIL), (has GAS); vm_compute; try done; intros [= <-].
  all: split; [|cbn; lia].
  all: split; [cbn; lia|intros [] i; cbn; intros H1 H2; simplify_eq; lia| |].
  all: first [intros []; cbn; do 2 eexists; split_and!; first [reflexivity|lia|by left|by right]|intros [] [] i; cbn; intros H1 H2 H3 H4; congruence].
Qed.

Section props.
Context {name_t : Type}.
Notation awell := (awell R name_t).
Notation wells := (wells R name_t).
Variable J : junk R name_t.
Variable pu : phase_usage.
Hypothesis Hpu : pu_ok pu.

(** ** C40: a forced group control gives every well of the tree the share of
    the target its guide rate says, as its current control; the shares add up to
    the target; no other well is touched. *)
Theorem C40_forced rq t n (W : wells) a : w_np W = pu_num pu → rel 0 W a → fits a (leaves n) → ready pu rq (guide rq) (leaves n) a →
  ∃ n' W' a', apply_control J pu rq t true n (W, []) = Some (n', (W', [])) ∧ rel 0 W' a' ∧ view W' = Some (a'.*1) ∧ w_np W' = pu_num pu ∧
    strip rq n' = strip rq n ∧ distributed pu rq (guide rq) t (leaves n) (leaves n') a a'.
Proof.
  intros Hnp HR Hfit Hrd. destruct (forced_ok J pu Hpu rq t n W a Hnp HR Hfit Hrd) as (n' & W' & a' & E & R' & N' & S' & D').
  exists n', W', a'. split_and!; try done. by eapply rel_view.
Qed.

(** ** C40: production controls of a tree. *)
Theorem C40_production n (W : wells) a : rel 0 W a → w_np W = pu_num pu → fits a (leaves n) →
  governed pu production_rate production_open production_left a n →
  ∃ n' W' a', apply_prod_controls J pu n (W, []) = Some (n', (W', [])) ∧ rel 0 W' a' ∧ view W' = Some (a'.*1) ∧
    outcome pu production_rate production_open production_left a a' n n' ∧ ∀ i, i ∉ (l_self <$> leaves n) → a' !! i = a !! i.
Proof.
  intros HR Hnp Hfit Hgv. destruct (production_ok J pu Hpu n W a HR Hnp Hfit Hgv) as (n' & W' & a' & E & R' & N' & O' & _ & F').
  exists n', W', a'. split_and!; try done. by eapply rel_view.
Qed.
(** ** C40: injection controls of a tree. *)
Theorem C40_injection n (W : wells) a : rel 0 W a → w_np W = pu_num pu → fits a (leaves n) →
  governed pu injection_rate injection_open injection_left a n →
  ∃ n' W' a', apply_inj_controls J pu n (W, []) = Some (n', (W', [])) ∧ rel 0 W' a' ∧ view W' = Some (a'.*1) ∧
    outcome pu injection_rate injection_open injection_left a a' n n' ∧ ∀ i, i ∉ (l_self <$> leaves n) → a' !! i = a !! i.
Proof.
  intros HR Hnp Hfit Hgv. destruct (injection_ok J pu Hpu n W a HR Hnp Hfit Hgv) as (n' & W' & a' & E & R' & N' & O' & _ & F').
  exists n', W', a'. split_and!; try done. by eapply rel_view.
Qed.
(** ** C40: a well directly below the controlling group that has a control of
    its own keeps it. *)
Theorem C40_own_control_kept rq T ps sp ch (W : wells) a : let n := Group ps sp ch in
  w_np W = pu_num pu → rel 0 W a → fits a (leaves n) → ready pu rq (group_guide rq) (leaves n) a → Forall (obedient rq) ch →
  ∃ ch' W' a', share_out J pu rq (guide_rate rq true n) T ch (W, []) = Some (ch', (W', [])) ∧ rel 0 W' a' ∧
    ∀ ps sp self gci shut, Well ps sp self gci shut ∈ ch → 
      match rq with ReqP _ => ps_mode ps ≠ P_GRUP ∧ ps_mode ps ≠ P_NONE | ReqI _ => is_mode sp ≠ I_GRUP ∧ is_mode sp ≠ I_NONE end →
      Leaf ps sp self gci shut ∈ leaves (Group ps sp ch') ∧ a' !! self = a !! self.
Proof.
  intros n Hnp HR Hfit Hrd Hob. destruct (shared_ok J pu Hpu rq T ps sp ch W a Hnp HR Hfit Hrd Hob) as (ch' & W' & a' & E & R' & N' & S' & D' & _ & K').
  exists ch', W', a'. split_and!; try done. intros ps1 sp1 self gci shut Hin Hm.
  apply (K' ps1 sp1 self gci shut Hin); unfold is_grup, is_none; destruct rq; apply bool_decide_eq_false_2; tauto.
Qed.
(** ** C40: explicit reinjection and voidage replacement: the injection wells
    get shares of the production times the given fraction. *)
Theorem C40_reinjection res surf ps sp ch (W : wells) a : let n := Group ps sp ch in
  is_mode sp = I_REIN → pu_used pu !! phase_index (is_phase sp) = Some 1%nat →
  w_np W = pu_num pu → rel 0 W a → fits a (leaves n) → ready pu (ReqI I_RATE) (group_guide (ReqI I_RATE)) (leaves n) a → Forall (obedient (ReqI I_RATE)) ch →
  (∀ lf, lf ∈ leaves n → (pu_num pu * l_self lf + pu_num pu <= length surf)%nat) →
  ∃ ch' W' a', apply_reinjection J pu res surf n (W, []) = Some (Group ps sp ch', (W', [])) ∧ rel 0 W' a' ∧ view W' = Some (a'.*1) ∧
    distributed pu (ReqI I_RATE) (group_guide (ReqI I_RATE)) (- produced pu a surf (is_phase sp) (leaves n) * is_rein sp) (leaves n) (leaves (Group ps sp ch')) a a'.
Proof.
  intros n Hm Hus Hnp HR Hfit Hrd Hob Hs. destruct (used_pos pu Hpu _ Hus) as (i & Ei & Hi).
  assert (Hpr : present a (leaves n)) by (intros lf Hlf; destruct (ft_well _ _ Hfit lf Hlf) as (w & cl & -> & _); by eexists).
  unfold apply_reinjection. subst n. cbn iota beta. rewrite Hm. cbn [fst].
  rewrite (total_ok pu surf (is_phase sp) i W a (Group ps sp ch) HR Ei Hi Hpr Hs). cbn [mbind option_bind]. unfold produced. rewrite Ei.
  destruct (shared_ok J pu Hpu (ReqI I_RATE) (- total (pu_num pu) a PRODUCER surf (leaves (Group ps sp ch)) i * is_rein sp) ps sp ch W a Hnp HR Hfit Hrd Hob) as (ch' & W' & a' & E & R' & N' & S' & D' & _).
  rewrite E. cbn [mbind option_bind]. exists ch', W', a'. split_and!; try done. by eapply rel_view.
Qed.
Theorem C40_voidage_replacement res surf ps sp ch (W : wells) a : let n := Group ps sp ch in
  is_mode sp = I_VREP →
  w_np W = pu_num pu → rel 0 W a → fits a (leaves n) → ready pu (ReqI I_RESV) (group_guide (ReqI I_RESV)) (leaves n) a → Forall (obedient (ReqI I_RESV)) ch →
  (∀ lf, lf ∈ leaves n → (pu_num pu * l_self lf + pu_num pu <= length res)%nat) →
  let active p := match pu_used pu !! phase_index p with Some 1%nat => produced pu a res p (leaves n) | _ => 0 end in
  ∃ ch' W' a', apply_reinjection J pu res surf n (W, []) = Some (Group ps sp ch', (W', [])) ∧ rel 0 W' a' ∧ view W' = Some (a'.*1) ∧
    distributed pu (ReqI I_RESV) (group_guide (ReqI I_RESV)) (- (active Aqua + active Liquid + active Vapour) * is_vrep sp) (leaves n) (leaves (Group ps sp ch')) a a'.
Proof.
  intros n Hm Hnp HR Hfit Hrd Hob Hs active.
  assert (Hpr : present a (leaves n)) by (intros lf Hlf; destruct (ft_well _ _ Hfit lf Hlf) as (w & cl & -> & _); by eexists).
  assert (Hadd : ∀ p x, add_used pu res W n p x = Some (x + active p)).
  { intros p x. unfold add_used, used, active. destruct (pk_all _ Hpu p) as (u & i & Eu & Ei & _ & Hu). rewrite Eu. cbn [mbind option_bind].
    destruct Hu as [-> | ->]; [rewrite decide_True by done; f_equal; lra|]. rewrite decide_False by done.
    rewrite (total_ok pu res p i W a n HR Ei (pk_pos _ Hpu p i Eu Ei) Hpr Hs). cbn [mbind option_bind]. unfold produced. by rewrite Ei. }
  unfold apply_reinjection. subst n. cbn iota beta. rewrite Hm. cbn [fst]. rewrite Hadd. cbn [mbind option_bind]. rewrite Hadd. cbn [mbind option_bind]. rewrite Hadd. cbn [mbind option_bind].
  replace (0 + active Aqua + active Liquid + active Vapour) with (active Aqua + active Liquid + active Vapour) by lra.
  destruct (shared_ok J pu Hpu (ReqI I_RESV) (- (active Aqua + active Liquid + active Vapour) * is_vrep sp) ps sp ch W a Hnp HR Hfit Hrd Hob) as (ch' & W' & a' & E & R' & N' & S' & D' & _).
  rewrite E. cbn [mbind option_bind]. exists ch', W', a'. split_and!; try done. by eapply rel_view.
Qed.

Variables bhp res surf : list R.
Notation np := (pu_num pu).

(** ** C42: the check of a well. *)
Theorem C42_well_check (W : wells) a lf w cl : rel 0 W a → w_np W = np → a !! l_self lf = Some (w, cl) → measured np bhp res surf [lf] →
  (observes np bhp res surf (l_self lf) (l_gci lf) w ∧
     ∃ sm, well_conditions pu bhp res surf (l_self lf) (l_gci lf) summed0 W = Some (true, sm, W)) ∨
  (∃ k c sm W', aw_ctrls w !! k = Some c ∧ violated np bhp res surf (l_self lf) w c ∧ checked (l_gci lf) w k ∧
     (∀ j d, (j < k)%nat → aw_ctrls w !! j = Some d → checked (l_gci lf) w j → ¬ violated np bhp res surf (l_self lf) w d) ∧
     well_conditions pu bhp res surf (l_self lf) (l_gci lf) summed0 W = Some (false, sm, W') ∧
     rel 0 W' (<[l_self lf := (AWell (aw_type w) (aw_depth w) (aw_frac w) (aw_perfs w) (aw_name w) (aw_ctrls w) (Z.of_nat k), cl)]> a)).
Proof.
  intros HR Hn Ew Hm. destruct (well_conditions_ok pu Hpu bhp res surf W a lf w cl HR Hn Ew Hm) as (sm & _ & [[Ho E]|(k & W' & Hv & E & _ & R')]).
  - left. split; [done|]. by exists sm.
  - right. destruct Hv as (_ & (c & Hc & Hv) & Hch & Hfirst). exists k, c, sm, W'. split_and!; try done. intros j d Hj. apply Hfirst. lia.
Qed.
(** ** C42: the check of a tree succeeds exactly if all wells observe their
    controls and no group exceeds a limit, and then nothing changes. *)
Theorem C42_tree_check n (W : wells) a o : rel 0 W a → w_np W = np → (∀ lf, lf ∈ leaves n → is_Some (a !! l_self lf)) → measured np bhp res surf (leaves n) → sensible pu n →
  (satisfied pu bhp res surf a n → ∃ sm, conditions_met J pu bhp res surf n summed0 (W, o) = Some (true, sm, n, (W, o))) ∧
  (∀ sm n' s', conditions_met J pu bhp res surf n summed0 (W, o) = Some (true, sm, n', s') → satisfied pu bhp res surf a n).
Proof.
  intros HR Hn Hpr Hm Hss. split.
  - intros Hs. destruct (satisfied_true J pu Hpu bhp res surf n W a o HR Hn Hpr Hm Hss Hs) as (sm & E & _). by exists sm.
  - intros sm n' s' E. by eapply true_satisfied.
Qed.
(** ** C42: the check stops at the first child that is not satisfied; the rest
    of the tree is left alone. *)
Theorem C42_first_failing ps sp ch1 c ch2 sm (W : wells) a o x c' s' : rel 0 W a → w_np W = np →
  (∀ lf, lf ∈ concat (map leaves ch1) → is_Some (a !! l_self lf)) → measured np bhp res surf (concat (map leaves ch1)) → Forall (sensible pu) ch1 →
  Forall (satisfied pu bhp res surf a) ch1 → conditions_met J pu bhp res surf c summed0 (W, o) = Some (false, x, c', s') →
  conditions_met J pu bhp res surf (Group ps sp (ch1 ++ c :: ch2)) sm (W, o) = Some (false, sm, Group ps sp (ch1 ++ c' :: ch2), s').
Proof. apply first_failing; done. Qed.

(** ** C41: a group whose children are satisfied and that exceeds a production
    limit with procedure WELL: the well with the largest (signed) rate is
    toggled between open and shut, nothing else changes. *)
Section group.
Variables (ps : pspec) (sp : ispec) (ch : list node).
Notation n := (Group ps sp ch).
Variables (W : wells) (a : list (awell * bool)).
Hypothesis HR : rel 0 W a.
Hypothesis Hn : w_np W = np.
Hypothesis Hfit : fits a (leaves n).
Hypothesis Hm : measured np bhp res surf (leaves n).
Hypothesis Hss : sensible pu n.
Hypothesis Hsat : Forall (satisfied pu bhp res surf a) ch.
Local Lemma reduce o : ∃ csm, sums pu res surf a (leaves n) csm ∧ conditions_met J pu bhp res surf n summed0 (W, o) =
    ('(b, n', s) ← group_conditions J pu res surf n csm (W, o); Some (b, if (b : bool) then summed_add summed0 csm else summed0, n', s)).
Proof.
  inversion Hss; subst. apply cond_reduce; try done. intros lf Hlf. destruct (ft_well _ _ Hfit lf Hlf) as (w & cl & -> & _). by eexists.
Qed.
Theorem C41_worst_offender m t : (0 < np)%nat → populated n → (∀ lf, lf ∈ leaves n → l_shut lf = true) → ps_proc ps = WELL_P →
  (∀ m t, ¬ exceeds_inj pu a res surf sp (leaves n) m t) → first_exceeded prod_order (exceeds_prod pu a res surf ps (leaves n)) m t →
  ∃ lf w cl W', lf ∈ leaves n ∧ (∀ lf', lf' ∈ leaves n → well_rate pu m res surf lf' <= well_rate pu m res surf lf) ∧
    a !! l_self lf = Some (w, cl) ∧ conditions_met J pu bhp res surf n summed0 (W, []) = Some (false, summed0, n, (W', [])) ∧
    rel 0 W' (<[l_self lf := (toggled w, cl)]> a) ∧ w_np W' = w_np W.
Proof.
  intros Hnp Hpop Hsh Hproc Hi Hp. destruct (reduce []) as (csm & Hs & E). inversion Hss; subst.
  rewrite (group_prod J pu Hpu res surf ps sp ch a csm _ m t) in E by done. rewrite Hproc in E.
  assert (Hcan : can_request pu (ReqP m)) by (destruct Hp as ((L1 & _ & L2 & _) & _); eauto).
  destruct (worst_ok pu Hpu bhp res surf m n Hcan Hnp Hm Hpop) as (p & lf & Ew & Hat & Hmax).
  pose proof (well_at_leaf _ _ _ Hat) as Hlf. destruct (ft_well _ _ Hfit lf Hlf) as (w & cl & Ea & _).
  destruct (shut_at_ok J p n lf W a w cl [] Hat (Hsh lf Hlf) HR Ea) as (W' & Es & N' & R').
  rewrite Ew in E. cbn [mbind option_bind] in E. rewrite Es in E. cbn [mbind option_bind] in E.
  exists lf, w, cl, W'. split_and!; done.
Qed.
(** ** C41: with procedure RATE the limit is distributed instead. *)
Theorem C41_group_rate m t : ps_proc ps = RATE_P → (∀ m t, ¬ exceeds_inj pu a res surf sp (leaves n) m t) →
  first_exceeded prod_order (exceeds_prod pu a res surf ps (leaves n)) m t → ready pu (ReqP m) (guide (ReqP m)) (leaves n) a →
  ∃ n' W' a', conditions_met J pu bhp res surf n summed0 (W, []) = Some (false, summed0, n', (W', [])) ∧ rel 0 W' a' ∧
    distributed pu (ReqP m) (guide (ReqP m)) t (leaves n) (leaves n') a a'.
Proof.
  intros Hproc Hi Hp Hrd. destruct (reduce []) as (csm & Hs & E). inversion Hss; subst.
  rewrite (group_prod J pu Hpu res surf ps sp ch a csm _ m t) in E by done. rewrite Hproc in E.
  destruct (forced_ok J pu Hpu (ReqP m) t n W a Hn HR Hfit Hrd) as (n' & W' & a' & E' & R' & _ & _ & D').
  rewrite E' in E. cbn [mbind option_bind] in E. exists n', W', a'. done.
Qed.
(** ** C41: with no procedure the failure is reported and nothing changes. *)
Theorem C41_no_procedure m t o : ps_proc ps = NONE_P → (∀ m t, ¬ exceeds_inj pu a res surf sp (leaves n) m t) →
  first_exceeded prod_order (exceeds_prod pu a res surf ps (leaves n)) m t →
  conditions_met J pu bhp res surf n summed0 (W, o) = Some (false, summed0, n, (W, o)).
Proof.
  intros Hproc Hi Hp. destruct (reduce o) as (csm & Hs & E). inversion Hss; subst.
  rewrite (group_prod J pu Hpu res surf ps sp ch a csm _ m t) in E by done. rewrite Hproc in E. done.
Qed.
(** ** C41: an exceeded injection limit comes first: it is distributed and
    becomes the control of the group. *)
Theorem C41_injection_limit m t : first_exceeded inj_order (exceeds_inj pu a res surf sp (leaves n)) m t → ready pu (ReqI m) (guide (ReqI m)) (leaves n) a →
  ∃ ps' sp' ch' W' a', conditions_met J pu bhp res surf n summed0 (W, []) = Some (false, summed0, Group ps' sp' ch', (W', [])) ∧ is_mode sp' = m ∧ rel 0 W' a' ∧
    distributed pu (ReqI m) (guide (ReqI m)) t (leaves n) (leaves (Group ps' sp' ch')) a a'.
Proof.
  intros Hi Hrd. destruct (reduce []) as (csm & Hs & E). inversion Hss; subst.
  rewrite (group_inj J pu res surf ps sp ch a csm _ m t) in E by done.
  destruct (forced_ok J pu Hpu (ReqI m) t n W a Hn HR Hfit Hrd) as (n' & W' & a' & E' & R' & _ & S' & D').
  rewrite E' in E. cbn [mbind option_bind] in E. destruct n' as [|ps' sp' ch']; [done|]. exists ps', (set_imode sp' m), ch', W', a'. done.
Qed.
End group.
End props.
Print Assumptions C40_forced.
Print Assumptions C40_production.
Print Assumptions C40_injection.
Print Assumptions C40_own_control_kept.
Print Assumptions C40_reinjection.
Print Assumptions C40_voidage_replacement.
Print Assumptions C41_worst_offender.
Print Assumptions C41_group_rate.
Print Assumptions C41_no_procedure.
Print Assumptions C41_injection_limit.
Print Assumptions C42_well_check.
Print Assumptions C42_tree_check.
Print Assumptions C42_first_failing.

(** ** Examples and refutations *)
Local Definition J0 : junk R unit := Junk PRODUCER BHP 77 78 79%Z None (Some tt).
Local Definition pu2 : phase_usage := PhaseUsage 2 [1; 1; 0]%nat [0; 1; 2]%nat.
Local Lemma pu2_ok : pu_ok pu2.
Proof.
  apply (deck_usage_ok (λ k, match k with GAS => false | _ => true end) [0; 0; 0]%nat [0; 0; 0]%nat); done.
Qed.
(** A well with a bottom-hole pressure control. *)
Local Definition tw (ty : wtype) (cur : Z) : awell R unit := AWell ty 0 [0; 0] [] None [ACtrl BHP 100 [0; 0]] cur.
Local Lemma some_wells ty0 c0 ty1 c1 : (c0 < 1)%Z → (c1 < 1)%Z →
  ∃ W cl0 cl1, rel 0 W [(tw ty0 c0, cl0); (tw ty1 c1, cl1)] ∧ w_np W = 2%nat.
Proof.
  intros H0 H1. destruct (create_wells_total 0 (-1) J0 2 2 0) as [W E]. destruct (create_wells_correct _ _ _ _ _ _ _ _ _ E) as (HR & Hn & _).
  destruct (run_correct 0 (-1) J0 [OAdd ty0 0 (Some [0; 0]) [] (Some []) None; OAdd ty1 0 (Some [0; 0]) [] (Some []) None;
     OAppend BHP 100 (Some [0; 0]) 0; OAppend BHP 100 (Some [0; 0]) 1; OSetCurrent 0 c0; OSetCurrent 1 c1] W [] HR) as (W' & a' & _ & R' & N' & Ea).
  - rewrite Hn. cbn. split_and!; try done; try lia; try (intros ? [= <-]; done); (eexists; split; [done|]; cbn; lia).
  - repeat constructor; by eexists.
  - rewrite Hn in Ea. cbn in Ea. destruct a' as [|[w0 cl0] [|[w1 cl1] [|]]]; try done. cbn in Ea. injection Ea as -> ->.
    exists W', cl0, cl1. split; [exact R'|]. by rewrite N'.
Qed.
Local Definition sp0 : ispec := ISpec I_NONE Aqua (-1) (-1) 0 0 0.
Local Definition wspec (m : pmode) (g : R) : pspec := PSpec m NONE_P (-1) (-1) (-1) (-1) (-1) g.
Local Definition two (m0 : pmode) (g0 : R) (m1 : pmode) (g1 : R) : node * node :=
  (Well (wspec m0 g0) sp0 0 (-1) true, Well (wspec m1 g1) sp0 1 (-1) true).
Local Lemma two_fit (l : list leaf) cl0 cl1 ty0 c0 ty1 c1 : (l_self <$> l) = [0; 1]%nat → Forall (λ lf, l_gci lf = (-1)%Z) l →
  fits [(tw ty0 c0, cl0); (tw ty1 c1, cl1)] l.
Proof.
  intros El Hg. split.
  - rewrite El. apply NoDup_cons. split; [by rewrite elem_of_list_singleton|]. apply NoDup_singleton.
  - intros lf Hlf. rewrite Forall_forall in Hg. rewrite (Hg lf Hlf). assert (l_self lf ∈ [0; 1]%nat) as Hin.
    { rewrite <- El. apply elem_of_list_fmap. by exists lf. }
    apply elem_of_cons in Hin as [->|Hin]; [|apply elem_of_list_singleton in Hin as ->]; (eexists _, _; split; [done|cbn; lia]).
Qed.
Local Ltac guides := unfold group_guide, guide; cbn [leaves concat map app rsum fst snd two guide_of l_ps l_sp wspec ps_guide is_guide sp0];
  repeat first [rewrite decide_True by done | rewrite decide_False by done]; cbn [guide_of l_ps l_sp ps_guide is_guide].

(** C40: a group controlled by its oil rate, with a well and a group below; the
    wells get 25 and 75 of 100. *)
Local Definition field1 : node :=
  Group (PSpec ORAT NONE_P 100 (-1) (-1) (-1) (-1) 0) sp0 [(two P_GRUP 1 P_GRUP 3).1; Group (wspec P_FLD 0) sp0 [(two P_GRUP 1 P_GRUP 3).2]].
Example C40_production_example : ∃ (W : wells R unit) a, rel 0 W a ∧ w_np W = pu_num pu2 ∧ fits a (leaves field1) ∧
  governed pu2 production_rate production_open production_left a field1 ∧
  map (λ lf, 100 * group_guide (ReqP ORAT) lf / rsum (group_guide (ReqP ORAT)) (leaves field1)) (leaves field1) = [25; 75].
Proof.
  destruct (some_wells PRODUCER 0 PRODUCER 0) as (W & cl0 & cl1 & HR & Hn); [lia..|]. eexists W, _. split; [exact HR|]. split; [done|].
  split; [apply two_fit; [done|by repeat constructor]|]. split.
  - eapply gv_rate; [done| |].
    + repeat (apply Forall_cons; split); [done| |done]. split; [by left|]. intros lf Hlf. apply elem_of_list_singleton in Hlf as ->. by left.
    + split.
      * intros [] Hp; by vm_compute in Hp |- *.
      * intros lf Hlf. cbn [leaves concat map app] in Hlf. apply elem_of_cons in Hlf as [->|Hlf]; [|apply elem_of_list_singleton in Hlf as ->]; guides; lra.
      * guides. lra.
      * intros lf w cl Hlf _ Ew. cbn [leaves concat map app] in Hlf. apply elem_of_cons in Hlf as [->|Hlf]; [|apply elem_of_list_singleton in Hlf as ->]; cbn in Ew; by injection Ew as <- <-.
  - cbn [leaves concat map app field1]. guides. f_equal; [lra|]. f_equal. lra.
Qed.

(** C40 is false if a well with a control of its own is in a subgroup: it loses
    its control and is asked for rate zero. *)
Local Lemma asked_zero rq d T ps sp ch (W : wells R unit) a k lf w cl : let n := Group ps sp ch in let G := guide_rate rq true n in
  control_of pu2 rq = Some (rate_kind rq, d) → length d = 3%nat → rel 0 W a → w_np W = 2%nat → fits a (leaves n) → G ≠ 0 →
  shared_targets rq G T ch !! k = Some (lf, Some 0) → l_gci lf = (-1)%Z →
  (∀ lf w cl, lf ∈ leaves n → a !! l_self lf = Some (w, cl) → aw_type w = wtype_of rq) → a !! l_self lf = Some (w, cl) →
  ∃ ch' W' a', share_out J0 pu2 rq G T ch (W, []) = Some (ch', (W', [])) ∧ rel 0 W' a' ∧
    a' !! l_self lf = Some (with_ctrls w (aw_ctrls w ++ [newc rq (rate_kind rq) d 2 0]) (Z.of_nat (length (aw_ctrls w))), cl).
Proof.
  intros n G Hc Hd HR Hn Hfit HG Hk Hg Hty Ew. pose proof (shared_leaves rq G T ch) as El.
  destruct (share_out_ok J0 pu2 rq (rate_kind rq) d Hc Hd 2 ltac:(lia) G T ch HG W a HR Hn) as (ch' & W' & E & R' & _).
  { apply Forall_forall. intros lf' Hlf. destruct (ft_well _ _ Hfit lf' Hlf) as (w' & cl' & H1 & H2). by exists w', cl'. }
  { apply Forall_forall. intros [lf' x] Hx t w' cl' _ Ew' Hne. destruct Hne. apply (Hty lf' w' cl'); [|done].
    change (lf' ∈ leaves n). subst n. cbn [leaves]. rewrite <- El. apply elem_of_list_In, in_map_iff. exists (lf', x). split; [done|by apply elem_of_list_In]. }
  exists ch', W', (perform rq (rate_kind rq) d 2 (shared_targets rq G T ch) a).2. split; [done|]. split; [done|].
  destruct (perform_leaf rq (rate_kind rq) d 2 (shared_targets rq G T ch) a k (lf, Some 0)) as [_ P]; [|done|].
  { rewrite list_fmap_compose. change (fst <$> shared_targets rq G T ch) with (map fst (shared_targets rq G T ch)). rewrite El. apply (ft_nodup _ _ Hfit). }
  cbn [fst] in P. rewrite P. unfold perform1. cbn [fst snd]. rewrite Ew, Hg.
  assert (lf ∈ leaves n) as Hlf.
  { subst n. cbn [leaves]. rewrite <- El. apply elem_of_list_In, in_map_iff. exists (lf, Some 0). split; [done|]. apply elem_of_list_In. by eapply elem_of_list_lookup_2. }
  rewrite decide_True by (by eapply Hty). unfold enter1. rewrite decide_True by lia. cbn [snd]. apply list_lookup_insert. by eapply lookup_lt_Some.
Qed.
Local Lemma control_orat : control_of pu2 (ReqP ORAT) = Some (SURFACE_RATE, [0; 1; 0]).
Proof. done. Qed.
Local Ltac gr := rewrite ?group_guide_sum; cbn [leaves concat map app rsum two fst snd]; guides.
Local Ltac types := let lf := fresh in let Hlf := fresh in let Ew := fresh in
  intros lf ? ? Hlf Ew; cbn [leaves concat map app two fst snd] in Hlf; apply elem_of_cons in Hlf as [->|Hlf];
  [|apply elem_of_list_singleton in Hlf as ->]; cbn in Ew; by injection Ew as <- <-.
Theorem C40_own_control_refuted : ∃ n (W : wells R unit) a lf w cl n' W' a' w' c, rel 0 W a ∧ fits a (leaves n) ∧ lf ∈ leaves n ∧ ps_mode (l_ps lf) = ORAT ∧
  a !! l_self lf = Some (w, cl) ∧ aw_current w = 0%Z ∧
  apply_prod_controls J0 pu2 n (W, []) = Some (n', (W', [])) ∧ rel 0 W' a' ∧ a' !! l_self lf = Some (w', cl) ∧
  aw_current w' = 1%Z ∧ aw_ctrls w' !! 1%nat = Some c ∧ controls_rate pu2 (ReqP ORAT) 0 c.
Proof.
  destruct (some_wells PRODUCER 0 PRODUCER 0) as (W & cl0 & cl1 & HR & Hn); [lia..|].
  set (ch := [Group (wspec P_FLD 0) sp0 [(two P_GRUP 1 ORAT 1).1; (two P_GRUP 1 ORAT 1).2]]).
  set (ps := PSpec ORAT NONE_P 100 (-1) (-1) (-1) (-1) 0).
  assert (HG : guide_rate (ReqP ORAT) true (Group ps sp0 ch) = 1) by (subst ch; gr; lra).
  assert (HG1 : guide_rate (ReqP ORAT) true (Group (wspec P_FLD 0) sp0 [(two P_GRUP 1 ORAT 1).1; (two P_GRUP 1 ORAT 1).2]) = 1) by (gr; lra).
  destruct (asked_zero (ReqP ORAT) [0; 1; 0] 100 ps sp0 ch W _ 1 (Leaf (wspec ORAT 1) sp0 1 (-1) true) (tw PRODUCER 0) cl1 control_orat eq_refl HR Hn) as (ch' & W' & a' & E & R' & Ea).
  - apply two_fit; [done|by repeat constructor].
  - rewrite HG. lra.
  - rewrite HG. unfold shared_targets. subst ch. cbn [map concat]. rewrite HG1. rewrite app_nil_r. cbn [targets orb negb].
    change (is_fld (ReqP ORAT) (wspec P_FLD 0) sp0 || is_none (ReqP ORAT) (wspec P_FLD 0) sp0) with true. cbn iota. rewrite HG1. destruct (Req_EM_T 1 0); [lra|].
    cbn [map concat two fst snd targets negb andb app lookup list_lookup]. do 3 f_equal.
    assert (guide_rate (ReqP ORAT) true (Well (wspec ORAT 1) sp0 1 (-1) true) = 0) as ->; [gr; lra|]. lra.
  - done.
  - subst ch. types.
  - done.
  - eexists (Group ps sp0 ch), W, _, (Leaf (wspec ORAT 1) sp0 1 (-1) true), _, cl1, (Group ps sp0 ch'), W', a', _, _.
    split; [exact HR|]. split; [apply two_fit; [done|by repeat constructor]|]. split; [subst ch; right; by left|]. split; [done|]. split; [done|]. split; [done|].
    split; [|split; [exact R'|split; [exact Ea|split; [done|split; [done|]]]]].
    + cbn [apply_prod_controls]. change (ps_mode ps) with ORAT. cbn iota. rewrite HG. destruct (Req_EM_T 1 0); [lra|]. cbn [ptarget mbind option_bind].
      rewrite HG in E. change (ps_oil ps) with 100. rewrite E. done.
    + split; [done|]. split; [cbn; lra|]. split; [done|]. intros p i H1 H2. destruct p; cbn in H2; injection H2 as <-; done.
Qed.
(** A well directly below the group, not under group control but without a
    control mode of its own, is asked for rate zero. *)
Theorem C40_no_mode_refuted : ∃ n (W : wells R unit) a lf w cl n' W' a' w' c, rel 0 W a ∧ fits a (leaves n) ∧ lf ∈ leaves n ∧ ps_mode (l_ps lf) = P_NONE ∧
  a !! l_self lf = Some (w, cl) ∧ aw_current w = 0%Z ∧
  apply_prod_controls J0 pu2 n (W, []) = Some (n', (W', [])) ∧ rel 0 W' a' ∧ a' !! l_self lf = Some (w', cl) ∧
  aw_current w' = 1%Z ∧ aw_ctrls w' !! 1%nat = Some c ∧ controls_rate pu2 (ReqP ORAT) 0 c.
Proof.
  destruct (some_wells PRODUCER 0 PRODUCER 0) as (W & cl0 & cl1 & HR & Hn); [lia..|].
  set (ch := [(two P_GRUP 1 P_NONE 1).1; (two P_GRUP 1 P_NONE 1).2]).
  set (ps := PSpec ORAT NONE_P 100 (-1) (-1) (-1) (-1) 0).
  assert (HG : guide_rate (ReqP ORAT) true (Group ps sp0 ch) = 1) by (subst ch; gr; lra).
  destruct (asked_zero (ReqP ORAT) [0; 1; 0] 100 ps sp0 ch W _ 1 (Leaf (wspec P_NONE 1) sp0 1 (-1) true) (tw PRODUCER 0) cl1 control_orat eq_refl HR Hn) as (ch' & W' & a' & E & R' & Ea).
  - apply two_fit; [done|by repeat constructor].
  - rewrite HG. lra.
  - rewrite HG. unfold shared_targets. subst ch. cbn [map concat two fst snd targets app]. cbn [lookup list_lookup].
    change (negb false && (negb (is_grup (ReqP ORAT) (wspec P_NONE 1) sp0) && negb (is_none (ReqP ORAT) (wspec P_NONE 1) sp0))) with false. cbn iota. do 3 f_equal.
    assert (guide_rate (ReqP ORAT) true (Well (wspec P_NONE 1) sp0 1 (-1) true) = 0) as ->; [gr; lra|]. lra.
  - done.
  - subst ch. types.
  - done.
  - eexists (Group ps sp0 ch), W, _, (Leaf (wspec P_NONE 1) sp0 1 (-1) true), _, cl1, (Group ps sp0 ch'), W', a', _, _.
    split; [exact HR|]. split; [apply two_fit; [done|by repeat constructor]|]. split; [subst ch; right; by left|]. split; [done|]. split; [done|]. split; [done|].
    split; [|split; [exact R'|split; [exact Ea|split; [done|split; [done|]]]]].
    + cbn [apply_prod_controls]. change (ps_mode ps) with ORAT. cbn iota. rewrite HG. destruct (Req_EM_T 1 0); [lra|]. cbn [ptarget mbind option_bind].
      rewrite HG in E. change (ps_oil ps) with 100. rewrite E. done.
    + split; [done|]. split; [cbn; lra|]. split; [done|]. intros p i H1 H2. destruct p; cbn in H2; injection H2 as <-; done.
Qed.
(** A forced production control fails an assertion if an injector below the
    group has a production guide rate. *)
Theorem C40_injector_guide_refuted : ∃ n (W : wells R unit) a, rel 0 W a ∧ fits a (leaves n) ∧ w_np W = pu_num pu2 ∧ can_request pu2 (ReqP ORAT) ∧
  (∀ lf, lf ∈ leaves n → 0 < guide (ReqP ORAT) lf) ∧ apply_control J0 pu2 (ReqP ORAT) 100 true n (W, []) = None.
Proof.
  destruct (some_wells INJECTOR 0 PRODUCER 0) as (W & cl0 & cl1 & HR & Hn); [lia..|].
  set (n := Group (wspec P_NONE 0) sp0 [(two P_NONE 1 P_GRUP 1).1; (two P_NONE 1 P_GRUP 1).2]).
  eexists n, W, _. split; [exact HR|]. split; [apply two_fit; [done|by repeat constructor]|]. split; [done|]. split; [intros [] Hp; by vm_compute in Hp |- *|]. split.
  - intros lf Hlf. subst n. cbn [leaves concat map app two fst snd] in Hlf. apply elem_of_cons in Hlf as [->|Hlf]; [|apply elem_of_list_singleton in Hlf as ->]; guides; lra.
  - subst n. rewrite apply_group. cbn [orb negb]. cbn zeta. rewrite guide_sum_all. cbn [leaves map concat app two fst snd]. 
    assert (rsum (guide (ReqP ORAT)) [Leaf (wspec P_NONE 1) sp0 0 (-1) true; Leaf (wspec P_GRUP 1) sp0 1 (-1) true] = 2) as -> by (guides; lra).
    destruct (Req_EM_T 2 0); [lra|]. unfold go_apply. rewrite rdiv_Some by lra. cbn [mbind option_bind]. cbn [apply_control]. unfold apply_well. cbn [negb andb].
    destruct (r_well _ _ _ HR 0%nat (tw INJECTOR 0) cl0 eq_refl) as (Ety & _). cbn [fst]. rewrite Ety.
    match goal with |- context [rdiv ?a 2] => rewrite (rdiv_Some a 2) by lra end. cbn [mbind option_bind]. rewrite decide_False by done.
    change (guide_rate (ReqP ORAT) false (Well (wspec P_NONE 1) sp0 0 (-1) true)) with 1.
    destruct (Req_EM_T (100 * 1 / 2) 0); [lra|done].
Qed.
(** An injection rate of a group none of whose wells has a guide rate is divided
    by zero. *)
Theorem C40_zero_guide_refuted : ∃ n (W : wells R unit) a, rel 0 W a ∧ fits a (leaves n) ∧ w_np W = pu_num pu2 ∧ apply_inj_controls J0 pu2 n (W, []) = None.
Proof.
  destruct (some_wells INJECTOR 0 PRODUCER 0) as (W & cl0 & cl1 & HR & Hn); [lia..|].
  set (n := Group (wspec P_NONE 0) (ISpec I_RATE Aqua 100 (-1) 0 0 0) [(two P_NONE 1 P_GRUP 1).1; (two P_NONE 1 P_GRUP 1).2]).
  eexists n, W, _.
  split; [exact HR|]. split; [apply two_fit; [done|by repeat constructor]|]. split; [done|].
  assert (E : guide_rate (ReqI I_RATE) true n = 0) by (subst n; gr; lra).
  unfold apply_inj_controls, n. cbn [is_mode itarget mbind option_bind]. fold n. rewrite E. cbn [share_out two fst].
  unfold rdiv. destruct (Req_EM_T 0 0); [done|lra].
Qed.
(** If there is no memory for the group control of a well without controls, the
    well is shut instead, and nothing is reported. *)
Theorem C40_out_of_memory_refuted : ∃ W W' n' o w w', reachable 0 (-1) J0 2 1 0 W [(OAdd PRODUCER 0 None [] None None, true)] ∧
  view W = Some [w] ∧ aw_type w = PRODUCER ∧
  apply_control J0 pu2 (ReqP ORAT) 100 true (Well (wspec P_GRUP 1) sp0 0 (-1) true) (W, [false]) = Some (n', (W', o)) ∧
  view W' = Some [w'] ∧ aw_ctrls w' = [] ∧ aw_current w' = (-1)%Z.
Proof.
  eexists _, _, _, _, _, _. split.
  { eapply (reach_step _ _ _ _ _ _ _ []) with (o := []) (p := OAdd PRODUCER 0 None [] None None).
    - eapply reach_create with (o := []). vm_compute. reflexivity.
    - vm_compute. reflexivity.
    - done.
    - vm_compute. reflexivity. }
  split; [vm_compute; reflexivity|]. split; [reflexivity|]. split; [vm_compute; reflexivity|]. split; [vm_compute; reflexivity|]. done.
Qed.

(** ** C41 *)
(** A group of two producers with oil limit 50 and procedure WELL. *)
Local Definition field2 : node := Group (PSpec P_NONE WELL_P 50 (-1) (-1) (-1) (-1) 0) sp0 [(two ORAT 1 ORAT 1).1; (two ORAT 1 ORAT 1).2].
Local Lemma producer_observes res surf self cur : observes 2 [200; 200] res surf self (-1) (tw PRODUCER cur) ∨ (2 <= self)%nat.
Proof.
  destruct (decide (2 <= self)%nat); [by right|]. left. intros [|k] c Hc _; [|done]. cbn in Hc. injection Hc as <-. unfold violated. cbn [ac_type aw_type tw ac_target].
  destruct self as [|[|]]; [cbn; lra..|lia].
Qed.
Local Lemma field2_case x y c0 c1 (W : wells R unit) cl0 cl1 : let a := [(tw PRODUCER c0, cl0); (tw PRODUCER c1, cl1)] in
  rel 0 W a → w_np W = 2%nat → 50 < Rabs (x + y) → y < x →
  ∃ W', conditions_met J0 pu2 [200; 200] [0; 0; 0; 0] [0; x; 0; y] field2 summed0 (W, []) = Some (false, summed0, field2, (W', [])) ∧
    rel 0 W' [(tw PRODUCER (- c0 - 1), cl0); (tw PRODUCER c1, cl1)] ∧ w_np W' = 2%nat.
Proof.
  intros a HR Hn Hxy Hlt.
  assert (Hlf : ∀ lf, lf ∈ leaves field2 → lf = Leaf (wspec ORAT 1) sp0 0 (-1) true ∨ lf = Leaf (wspec ORAT 1) sp0 1 (-1) true).
  { intros lf H. cbn [leaves field2 concat map app two fst snd] in H. apply elem_of_cons in H as [->|H]; [by left|]. apply elem_of_list_singleton in H as ->. by right. }
  destruct (C41_worst_offender J0 pu2 pu2_ok [200; 200] [0; 0; 0; 0] [0; x; 0; y] (PSpec P_NONE WELL_P 50 (-1) (-1) (-1) (-1) 0) sp0 [(two ORAT 1 ORAT 1).1; (two ORAT 1 ORAT 1).2] W a HR) with (m := ORAT) (t := 50)
    as (lf & w & cl & W' & Hin & Hmax & Ew & E & R' & N').
  - done.
  - apply two_fit; [done|by repeat constructor].
  - intros lf H. destruct (Hlf lf H) as [-> | ->]; cbn; lia.
  - constructor; [repeat (apply Forall_cons; split); try constructor|]. intros m t Hm Ht. destruct m; cbn in Hm; try done; injection Hm as <-; try lra. intros [] Hp; by vm_compute in Hp |- *.
  - repeat (apply Forall_cons; split); [..|constructor]; constructor; intros w cl Ew; cbn in Ew; injection Ew as <- <-; cbn [l_self].
    + destruct (producer_observes [0; 0; 0; 0] [0; x; 0; y] 0 c0); [done|lia].
    + destruct (producer_observes [0; 0; 0; 0] [0; x; 0; y] 1 c1); [done|lia].
  - cbn. lia.
  - constructor; [done|]. repeat constructor.
  - intros lf H. destruct (Hlf lf H) as [-> | ->]; done.
  - done.
  - intros m t (H1 & _ & H2 & _). destruct m; cbn in H1; try done; injection H1 as <-; lra.
  - split; [|exists [], [WRAT; GRAT; LRAT; P_RESV]; split; [done|]; intros ? ? H; by apply elem_of_nil in H].
    split; [done|]. split; [done|]. split; [lra|]. cbn. unfold total. cbn. unfold at_well. cbn. rewrite !bool_decide_true by done. replace (x + (y + 0)) with (x + y) by lra. done.
  - assert (lf = Leaf (wspec ORAT 1) sp0 0 (-1) true) as ->.
    { destruct (Hlf lf Hin) as [-> | ->]; [done|]. exfalso. specialize (Hmax (Leaf (wspec ORAT 1) sp0 0 (-1) true) ltac:(by left)).
      unfold well_rate, mode_rate, at_well in Hmax. cbn in Hmax. lra. }
    cbn in Ew. injection Ew as <- <-. exists W'. split; [exact E|]. split; [exact R'|by rewrite N'].
Qed.
(** C41: the producer that is shut is the one that contributes least, as
    production is negative. *)
Theorem C41_worst_offender_refuted : ∃ n (W W' : wells R unit) a bhp res surf lf lf' w cl, rel 0 W a ∧ fits a (leaves n) ∧
  lf ∈ leaves n ∧ lf' ∈ leaves n ∧ Rabs (well_rate pu2 ORAT res surf lf) < Rabs (well_rate pu2 ORAT res surf lf') ∧
  a !! l_self lf = Some (w, cl) ∧ (0 <= aw_current w)%Z ∧
  conditions_met J0 pu2 bhp res surf n summed0 (W, []) = Some (false, summed0, n, (W', [])) ∧ rel 0 W' (<[l_self lf := (toggled w, cl)]> a) ∧
  (aw_current (toggled w) < 0)%Z.
Proof.
  destruct (some_wells PRODUCER 0 PRODUCER 0) as (W & cl0 & cl1 & HR & Hn); [lia..|].
  destruct (field2_case (-10) (-90) 0 0 W cl0 cl1 HR Hn) as (W' & E & R' & N'); [unfold Rabs; destruct (Rcase_abs _); lra|lra|].
  eexists field2, W, W', _, _, _, _, (Leaf (wspec ORAT 1) sp0 0 (-1) true), (Leaf (wspec ORAT 1) sp0 1 (-1) true), _, cl0.
  split; [exact HR|]. split; [apply two_fit; [done|by repeat constructor]|]. split; [by left|]. split; [right; by left|]. split; [|split; [done|split; [done|split; [exact E|split; [exact R'|cbn; lia]]]]].
  unfold well_rate, mode_rate, at_well. cbn. unfold Rabs. destruct (Rcase_abs (-10)), (Rcase_abs (-90)); lra.
Qed.
(** C41: a well that has been shut has rate zero, so it is the one toggled by
    the next check: it is opened again. *)
Theorem C41_reopened_refuted : ∃ n (W W' W'' : wells R unit) a w cl bhp res surf surf', rel 0 W a ∧ fits a (leaves n) ∧ a !! 0%nat = Some (w, cl) ∧ (0 <= aw_current w)%Z ∧
  conditions_met J0 pu2 bhp res surf n summed0 (W, []) = Some (false, summed0, n, (W', [])) ∧ rel 0 W' (<[0%nat := (toggled w, cl)]> a) ∧
  surf' !! 1%nat = Some 0 ∧
  conditions_met J0 pu2 bhp res surf' n summed0 (W', []) = Some (false, summed0, n, (W'', [])) ∧ rel 0 W'' a.
Proof.
  destruct (some_wells PRODUCER 0 PRODUCER 0) as (W & cl0 & cl1 & HR & Hn); [lia..|].
  destruct (field2_case (-10) (-90) 0 0 W cl0 cl1 HR Hn) as (W' & E & R' & N'); [unfold Rabs; destruct (Rcase_abs _); lra|lra|].
  destruct (field2_case 0 (-90) (-1) 0 W' cl0 cl1 R' N') as (W2 & E2 & R2 & _); [unfold Rabs; destruct (Rcase_abs _); lra|lra|].
  eexists field2, W, W', W2, _, _, cl0, _, _, _, _.
  split; [exact HR|]. split; [apply two_fit; [done|by repeat constructor]|]. split; [done|]. split; [done|]. split; [exact E|]. split; [exact R'|].
  split; [|split; [exact E2|exact R2]]. done.
Qed.
(** C41: an injector below the group is shut if it injects more than the
    producers produce: its rate is the largest. *)
Theorem C41_injector_shut_refuted : ∃ n (W W' : wells R unit) a bhp res surf lf w cl, rel 0 W a ∧ fits a (leaves n) ∧ populated n ∧
  lf ∈ leaves n ∧ a !! l_self lf = Some (w, cl) ∧ aw_type w = INJECTOR ∧ (0 <= aw_current w)%Z ∧
  (∃ m t ps sp ch, n = Group ps sp ch ∧ exceeds_prod pu2 a res surf ps (leaves n) m t) ∧
  conditions_met J0 pu2 bhp res surf n summed0 (W, []) = Some (false, summed0, n, (W', [])) ∧ rel 0 W' (<[l_self lf := (toggled w, cl)]> a) ∧
  (aw_current (toggled w) < 0)%Z.
Proof.
  destruct (some_wells INJECTOR 0 PRODUCER 0) as (W & cl0 & cl1 & HR & Hn); [lia..|].
  assert (Hlf : ∀ lf, lf ∈ leaves field2 → lf = Leaf (wspec ORAT 1) sp0 0 (-1) true ∨ lf = Leaf (wspec ORAT 1) sp0 1 (-1) true).
  { intros lf H. cbn [leaves field2 concat map app two fst snd] in H. apply elem_of_cons in H as [->|H]; [by left|]. apply elem_of_list_singleton in H as ->. by right. }
  assert (Hex : exceeds_prod pu2 [(tw INJECTOR 0, cl0); (tw PRODUCER 0, cl1)] [0; 0; 0; 0] [0; 10; 0; -90] (PSpec P_NONE WELL_P 50 (-1) (-1) (-1) (-1) 0) (leaves field2) ORAT 50).
  { split; [done|]. split; [done|]. split; [lra|]. cbn. unfold total. cbn. unfold at_well. cbn. rewrite bool_decide_false by done. rewrite bool_decide_true by done.
    unfold Rabs. destruct (Rcase_abs _); lra. }
  destruct (C41_worst_offender J0 pu2 pu2_ok [50; 200] [0; 0; 0; 0] [0; 10; 0; -90] (PSpec P_NONE WELL_P 50 (-1) (-1) (-1) (-1) 0) sp0 [(two ORAT 1 ORAT 1).1; (two ORAT 1 ORAT 1).2] W _ HR) with (m := ORAT) (t := 50)
    as (lf & w & cl & W' & Hin & Hmax & Ew & E & R' & N').
  - done.
  - apply two_fit; [done|by repeat constructor].
  - intros lf H. destruct (Hlf lf H) as [-> | ->]; cbn; lia.
  - constructor; [repeat (apply Forall_cons; split); try constructor|]. intros m t Hm Ht. destruct m; cbn in Hm; try done; injection Hm as <-; try lra. intros [] Hp; by vm_compute in Hp |- *.
  - repeat (apply Forall_cons; split); [..|constructor]; constructor; intros w cl Ew; cbn in Ew; injection Ew as <- <-; cbn [l_self];
      intros [|k] c Hc _; try done; cbn in Hc; injection Hc as <-; unfold violated; cbn; lra.
  - cbn. lia.
  - constructor; [done|]. repeat constructor.
  - intros lf H. destruct (Hlf lf H) as [-> | ->]; done.
  - done.
  - intros m t (H1 & _ & H2 & _). destruct m; cbn in H1; try done; injection H1 as <-; lra.
  - split; [exact Hex|exists [], [WRAT; GRAT; LRAT; P_RESV]; split; [done|]; intros ? ? H; by apply elem_of_nil in H].
  - assert (lf = Leaf (wspec ORAT 1) sp0 0 (-1) true) as ->.
    { destruct (Hlf lf Hin) as [-> | ->]; [done|]. exfalso. specialize (Hmax (Leaf (wspec ORAT 1) sp0 0 (-1) true) ltac:(by left)).
      unfold well_rate, mode_rate, at_well in Hmax. cbn in Hmax. lra. }
    cbn in Ew. injection Ew as <- <-.
    eexists field2, W, W', _, _, _, _, (Leaf (wspec ORAT 1) sp0 0 (-1) true), _, cl0.
    split; [exact HR|]. split; [apply two_fit; [done|by repeat constructor]|]. split; [constructor; [done|]; repeat constructor|]. split; [done|]. split; [done|]. split; [done|]. split; [done|].
    split; [by eexists ORAT, 50, _, _, _|]. split; [exact E|]. split; [exact R'|]. cbn. lia.
Qed.
(** C41: an empty group among the children makes the code follow a null
    pointer if the limit is exceeded. *)
Theorem C41_empty_group_refuted : ∃ n res surf, worst_offending pu2 res surf ORAT n = Some (None, 0) ∧ ∃ lf, lf ∈ leaves n ∧ well_rate pu2 ORAT res surf lf = -90.
Proof.
  exists (Group (wspec P_NONE 0) sp0 [Group (wspec P_NONE 0) sp0 []; (two ORAT 1 ORAT 1).2]), [0; 0; 0; 0], [0; 0; 0; -90]. split.
  - cbn. rewrite (decide_True (P := (2 < 4)%nat ∧ (2 < 4)%nat)) by lia. cbn. rewrite (decide_True (P := 0%nat = 0%nat)) by done. rewrite decide_False by done. cbn. destruct (Rlt_dec 0 (-90)); [lra|done].
  - exists (Leaf (wspec ORAT 1) sp0 1 (-1) true). split; [by left|]. done.
Qed.

(** ** C42 *)
(** C42: a shut well one of whose controls is violated is opened by the check. *)
Theorem C42_reopened_refuted : ∃ (W W' : wells R unit) a w cl bhp res surf sm, rel 0 W a ∧ w_np W = pu_num pu2 ∧ a !! 0%nat = Some (w, cl) ∧ (aw_current w < 0)%Z ∧
  measured (pu_num pu2) bhp res surf [Leaf (wspec ORAT 1) sp0 0 (-1) true] ∧
  well_conditions pu2 bhp res surf 0 (-1) summed0 W = Some (false, sm, W') ∧ rel 0 W' (<[0%nat := (tw PRODUCER 0, cl)]> a).
Proof.
  destruct (some_wells PRODUCER (-1) PRODUCER 0) as (W & cl0 & cl1 & HR & Hn); [lia..|].
  assert (Hm : measured (pu_num pu2) [50; 200] [0; 0; 0; 0] [0; 0; 0; 0] [Leaf (wspec ORAT 1) sp0 0 (-1) true]).
  { intros lf H. apply elem_of_list_singleton in H as ->. cbn. lia. }
  destruct (C42_well_check pu2 pu2_ok [50; 200] [0; 0; 0; 0] [0; 0; 0; 0] W _ (Leaf (wspec ORAT 1) sp0 0 (-1) true) (tw PRODUCER (-1)) cl0 HR Hn eq_refl Hm)
    as [[Ho _]|(k & c & sm & W' & Hk & _ & _ & _ & E & R')].
  - exfalso. apply (Ho 0%nat (ACtrl BHP 100 [0; 0])); [done|split; cbn; lia|]. unfold violated. cbn. lra.
  - destruct k as [|k]; [|done]. eexists W, W', _, _, cl0, _, _, _, sm. split; [exact HR|]. split; [done|]. split; [done|]. split; [cbn; lia|]. split; [exact Hm|]. split; [exact E|exact R'].
Qed.
Print Assumptions C40_own_control_refuted.
Print Assumptions C40_no_mode_refuted.
Print Assumptions C40_injector_guide_refuted.
Print Assumptions C40_zero_guide_refuted.
Print Assumptions C40_out_of_memory_refuted.
Print Assumptions C41_worst_offender_refuted.
Print Assumptions C41_reopened_refuted.
Print Assumptions C41_injector_shut_refuted.
Print Assumptions C41_empty_group_refuted.
Print Assumptions C42_reopened_refuted.
(** C42: the tree of C41 with little production passes the check. *)
Example C42_satisfied_example : ∃ (W : wells R unit) a sm o, rel 0 W a ∧ satisfied pu2 [200; 200] [0; 0; 0; 0] [0; -10; 0; -20] a field2 ∧
  conditions_met J0 pu2 [200; 200] [0; 0; 0; 0] [0; -10; 0; -20] field2 summed0 (W, o) = Some (true, sm, field2, (W, o)).
Proof.
  destruct (some_wells PRODUCER 0 PRODUCER 0) as (W & cl0 & cl1 & HR & Hn); [lia..|].
  assert (Hs : satisfied pu2 [200; 200] [0; 0; 0; 0] [0; -10; 0; -20] [(tw PRODUCER 0, cl0); (tw PRODUCER 0, cl1)] field2).
  { constructor.
    - repeat (apply Forall_cons; split); [..|constructor]; constructor; intros w cl Ew; cbn in Ew; injection Ew as <- <-.
      + destruct (producer_observes [0; 0; 0; 0] [0; -10; 0; -20] 0 0); [done|lia].
      + destruct (producer_observes [0; 0; 0; 0] [0; -10; 0; -20] 1 0); [done|lia].
    - intros m t (H1 & _ & H2 & _). destruct m; cbn in H1; try done; injection H1 as <-; lra.
    - intros m t (H1 & _ & H2 & H3). destruct m; cbn in H1; try done; injection H1 as <-; try lra. revert H3. cbn. unfold total. cbn. unfold at_well. cbn. rewrite !bool_decide_true by done.
      unfold Rabs. destruct (Rcase_abs _); lra. }
  destruct (C42_tree_check J0 pu2 pu2_ok [200; 200] [0; 0; 0; 0] [0; -10; 0; -20] field2 W _ [] HR Hn) as [H _].
  - intros lf H. cbn [leaves field2 concat map app two fst snd] in H. apply elem_of_cons in H as [->|H]; [by eexists|]. apply elem_of_list_singleton in H as ->. by eexists.
  - intros lf H. cbn [leaves field2 concat map app two fst snd] in H. apply elem_of_cons in H as [->|H]; [|apply elem_of_list_singleton in H as ->]; cbn; lia.
  - constructor; [repeat (apply Forall_cons; split); try constructor|]. intros m t Hm Ht. destruct m; cbn in Hm; try done; injection Hm as <-; try lra. intros [] Hp; by vm_compute in Hp |- *.
  - destruct (H Hs) as [sm E]. eexists W, _, sm, []. split; [exact HR|]. split; [exact Hs|exact E].
Qed.
