(** * Theorems about the two-point pressure system (C35, C36) *)
From Coq Require Import Reals Lra.
From stdpp Require Import sorting.
From Verif Require Import Base LoopModel LoopProof CsrSpec CsrModel CsrProof CsrProps GridModel GridSpec TableModel TofSpec TofProof
  UTableProof AccModel AccProof HalfProof WellsModel IfsModel IfsSpec IfsProof IfsOps IfsBal IfsSol IfsEq IfsFin ReorderProps.
Local Open Scope R_scope.
Unset Default Proof Using.

(** ** C35: the pattern
    The matrix allocated for any grid and wells in its cells has the pattern
    that the assembly relies on. *)
Theorem C35_pattern qsort junk g cf wrows :
  qsort_contract qsort → grid_ok g cf → (0 < u_nc g + length wrows)%nat → Forall (Forall (λ c, c < u_nc g)%nat) wrows →
  ∃ A ja rows, construct_matrix qsort junk (u_nc g) (face_pairs g) (Some wrows) [] = Some (Some A, []) ∧ pattern g A wrows ja rows.
Proof.
  intros Hq Hg Hn Hw. destruct (C06_tpfa_pattern qsort junk (u_nc g) (face_pairs g) (Some wrows) Hq Hn) as (A & ja & rows & E & H1 & H2 & H3 & H4 & H5 & H6).
  - intros c1 c2 Hin. unfold face_pairs in Hin. apply elem_of_list_fmap in Hin as (f & E & Hf%elem_of_seq).
    destruct (face_data g cf Hg f ltac:(lia)) as (a & b & Hab). pose proof (ok_range _ _ Hg _ _ _ Hab) as (Ra & Rb & _).
    destruct Hab as [Ea Eb]. rewrite Ea, Eb in E. cbn [default from_option] in E. unfold Datatypes.id, opt_cell in E.
    destruct (decide (0 <= a)%Z), (decide (0 <= b)%Z); try discriminate E. injection E as -> ->. lia.
  - done.
  - exists A, ja, rows. split; [done|]. cbn [default from_option] in *. unfold Datatypes.id in *. constructor; try done.
    intros w r c Hwr Hc. rewrite Forall_forall in Hw. specialize (Hw r ltac:(by eapply elem_of_list_lookup_2)). rewrite Forall_forall in Hw. by apply Hw.
Qed.
Print Assumptions C35_pattern.

Section thms.
Context {name_t : Type}.
Context (bsearch : nat → list nat → option nat) (Hbs : bsearch_contract bsearch).
Context (g : ugrid) (cf : list (list nat)) (Hg : grid_ok g cf).
Context (A : csr) (wrows : list (list nat)) (ja : list nat) (rows : list (list nat)) (Hp : pattern g A wrows ja rows).
Context (trans gpress : list R) (Ht : length trans = u_nf g) (Hgp : length gpress = length (u_cellfaces g)).
Context (F : option (forces name_t)) (ds : list demand) (l : list bcitem) (HF : forces_ok g wrows F ds l).
Notation nc := (u_nc g).
Notation T f := (default 0 (trans !! f)).
Notation opsF G := (opsF g cf wrows trans F ds l G).
Notation vec x := (λ k, default 0 (x !! k)).

Lemma sized_of s : length (s_sa s) = a_nnz A → length (s_b s) = a_m A → sized ja rows s.
Proof. intros H1 H2. split; [by rewrite H1, (pt_nnz _ _ _ _ _ Hp)|by rewrite H2, (pt_len _ _ _ _ _ Hp)]. Qed.
Lemma supported_all : (∀ d, d ∈ ds → d ≠ Unsupported) → forallb supported ds = true.
Proof.
  intros H. apply forallb_forall. intros d Hd. rewrite <- elem_of_list_In in Hd. specialize (H d Hd). by destruct d.
Qed.

(** ** C35: the system without wells and boundary conditions
    For any previous content of the arrays, all entries are the (negative) sums
    of the transmissibilities between the two cells, the diagonal the sum over
    the interior faces of the cell; the matrix is symmetric, the rows sum to
    zero and the right hand side sums to the total source. *)
Theorem C35_system fgrav s :
  ds = [] → l = [] → length fgrav = u_nf g → length (s_sa s) = a_nnz A → length (s_b s) = a_m A →
  ∃ G s', assemble_incompressible bsearch g A trans gpress F fgrav s = Some (G, s', true, true) ∧
    (∀ c r d, cf !! c = Some r → c ≠ d →
      mat A (s_sa s') c d = - rsum (λ f, if decide (neighbour g c f = Z.of_nat d) then T f else 0) r) ∧
    (∀ c r, cf !! c = Some r → mat A (s_sa s') c c = rsum (λ f, if decide (0 <= neighbour g c f)%Z then T f else 0) r) ∧
    (∀ i j, mat A (s_sa s') i j = mat A (s_sa s') j i) ∧
    (∀ i, (i < a_m A)%nat → rsum (mat A (s_sa s') i) (seq 0 (a_m A)) = 0) ∧
    (Forall (Rle 0) trans → ∀ i j, i ≠ j → mat A (s_sa s') i j <= 0) ∧
    rsum (λ k, default 0 (s_b s' !! k)) (seq 0 (a_m A)) = rsum (source F) (seq 0 nc).
Proof.
  intros Hds Hll Hfl Hs1 Hs2.
  destruct (assembled bsearch Hbs g cf Hg A wrows ja rows Hp trans gpress Ht Hgp F ds l HF fgrav s Hfl (sized_of s Hs1 Hs2)) as (G & s' & ok & E & HG & _ & Hok & H).
  rewrite Hds in Hok. cbn in Hok. subst ok. destruct (H eq_refl) as [HA HB]. exists G, s'.
  assert (free ds l = true) as Ef by (by rewrite Hds, Hll). rewrite Ef in E. split; [done|].
  assert (Hv : Forall (valid rows) (opsF G)) by (by eapply opsF_valid).
  assert (Eops : opsF G = concat (map (face_ops g trans G) (halves 0 0 cf)) ++ sopsF g F).
  { unfold IfsSol.opsF, IfsSol.wopsF, IfsSol.bopsF. rewrite Hll. cbn [bcs map concat]. f_equal. rewrite Hds.
    destruct F as [F'|]; [|done]. destruct (F_W F'); [|done]. destruct (F_totmob F'); [|done]. by destruct (F_wdp F'). }
  assert (Hsrc : ∀ i j, oa (sopsF g F) i j = 0).
  { intros i j. unfold sopsF. destruct F as [F'|]; [|done]. destruct (F_src F'); [|done]. unfold src_ops, oa. rewrite rsum_map. by apply rsum_zero. }
  assert (Hent : ∀ i j, mat A (s_sa s') i j = rsum (λ ci, oa (face_ops g trans G ci) i j) (halves 0 0 cf)).
  { intros i j. by rewrite HA, Eops, oa_app, Hsrc, Rplus_0_r, oa_concat. }
  assert (Hoff : ∀ c r d, cf !! c = Some r → c ≠ d → mat A (s_sa s') c d = - rsum (λ f, if decide (neighbour g c f = Z.of_nat d) then T f else 0) r).
  { intros c r d Hr Hcd. rewrite Hent, <- (rsum_cell g cf Hg c r) by done. rewrite <- rsum_opp. apply rsum_ext. intros ci _. rewrite face_ops_oa. cbn zeta.
    destruct (decide (ci.1 = c)) as [->|Hn].
    - rewrite (decide_False (P := c = c ∧ c = d)) by (intros [_ ?]; done). destruct (decide (0 <= _)%Z) as [Hz|Hz].
      + rewrite (decide_ext (c = c ∧ Z.to_nat (neighbour g c (default 0%nat (u_cellfaces g !! ci.2))) = d) (neighbour g c (default 0%nat (u_cellfaces g !! ci.2)) = Z.of_nat d)) by lia. lra.
      + rewrite decide_False by lia. lra.
    - rewrite !(decide_False (P := ci.1 = c ∧ _)) by (intros [? _]; done). destruct (decide _); lra. }
  split; [exact Hoff|]. split; [|split; [|split; [|split]]].
  - intros c r Hr. rewrite Hent, <- (rsum_cell g cf Hg c r) by done. apply rsum_ext. intros [c' i] Hi. rewrite face_ops_oa. cbn zeta. cbn [fst snd].
    destruct (decide (c' = c)) as [->|Hn].
    + destruct (half_neighbour g cf Hg c i Hi) as (f & a & b & Ef' & Hlt & Hab & Hc & Hor). rewrite Ef'. cbn [default from_option]. unfold Datatypes.id.
      pose proof (ok_range _ _ Hg _ _ _ Hab) as (Ra & Rb & Rab).
      destruct (decide (0 <= _)%Z) as [Hz|Hz]; [|done]. rewrite decide_True by done. rewrite decide_False; [lra|].
      intros [_ E']. destruct Hor as [[-> Hnb]|(? & -> & Hnb)]; rewrite Hnb in *; lia.
    + rewrite !(decide_False (P := c' = c ∧ _)) by (intros [? _]; done). destruct (decide _); lra.
  - intros i j. rewrite !HA. by apply (oa_sym g cf Hg wrows trans gpress Ht Hgp F ds l HF).
  - intros i Hi. pose proof (res_sum (λ _, 1) i (a_m A) _ (ops_cols g cf Hg A wrows ja rows Hp _ Hv)) as Er.
    rewrite (rsum_ext _ (λ j, mat A (s_sa s') i j)) in Er by (intros j _; rewrite HA; lra).
    assert (rsum (res1 (λ _, 1) i) (opsF G) = - ob (opsF G) i) as E2; [|change (rsum (λ j, mat A (s_sa s') i j) (seq 0 (a_m A)) = 0); lra].
    unfold ob. rewrite <- rsum_opp, Eops, !rsum_app. f_equal.
    + rewrite !rsum_concat, !rsum_map. apply rsum_ext. intros ci _. unfold face_ops. cbn [rsum res1 ob1]. destruct (decide (0 <= _)%Z); cbn [rsum res1 ob1]; destruct (decide (ci.1 = i)); lra.
    + unfold sopsF. destruct F as [F'|]; [|done]. destruct (F_src F'); [|done]. unfold src_ops. rewrite !rsum_map. apply rsum_ext. intros c _. cbn [res1 ob1]. destruct (decide _); lra.
  - intros Hnt i j Hij. assert (HT : ∀ f, 0 <= T f).
    { intros f. destruct (trans !! f) as [t|] eqn:Et; cbn; [|lra]. rewrite Forall_forall in Hnt. apply Hnt. by eapply elem_of_list_lookup_2. }
    destruct (cf !! i) as [r|] eqn:Hr.
    + rewrite (Hoff i r j Hr Hij). apply Ropp_le_cancel. rewrite Ropp_involutive, Ropp_0. apply rsum_nonneg. intros f _. destruct (decide _); [done|lra].
    + rewrite Hent, rsum_zero; [lra|]. intros [c k] Hi. rewrite face_ops_oa. cbn zeta. cbn [fst].
      assert (c ≠ i). { destruct (half_lt g cf Hg c k Hi) as [Hc _]. apply lookup_ge_None in Hr. rewrite (ok_cells _ _ Hg) in Hr. lia. }
      rewrite !(decide_False (P := c = i ∧ _)) by (intros [? _]; done). destruct (decide _); lra.
  - pose proof (res_total (λ _, 0) (a_m A) _ (ops_rows g A wrows ja rows Hp _ Hv)) as Er.
    rewrite (rsum_ext _ (λ k, - default 0 (s_b s' !! k))) in Er.
    2: { intros k Hk%elem_of_seq. rewrite HB by lia. change (default 0 (Some ?y)) with y. unfold ob. rewrite <- rsum_opp. apply rsum_ext.
         intros [i j v|k' v] _; cbn [res1 ob1]; destruct (decide _); lra. }
    rewrite rsum_opp, Eops, rsum_app in Er. destruct HG as (HG1 & HG2 & HG3).
    rewrite (tot_face_ops g cf Hg trans G HG2) in Er.
    enough (rsum (tot1 (λ _, 0)) (sopsF g F) = - rsum (source F) (seq 0 nc)) by lra.
    unfold sopsF, source. destruct F as [F'|]; [|cbn; rewrite rsum_zero; [lra|done]].
    destruct (F_src F'); [|cbn; rewrite rsum_zero; [lra|done]]. by rewrite tot_sops.
Qed.

(** ** C35: with all forces, the final matrix is symmetric and, before the
    first diagonal element is doubled, positive semidefinite. *)
Theorem C35_symmetric fgrav s : (0 < nc)%nat → length fgrav = u_nf g → length (s_sa s) = a_nnz A → length (s_b s) = a_m A →
  (∀ d, d ∈ ds → d ≠ Unsupported) →
  ∃ G s', ifs_assemble bsearch g A trans gpress F fgrav s = Some (G, s', true) ∧ ∀ i j, mat A (s_sa s') i j = mat A (s_sa s') j i.
Proof.
  intros Hnc Hfl Hs1 Hs2 Hd. apply supported_all in Hd.
  destruct (ifs_assembled bsearch Hbs g cf Hg A wrows ja rows Hp trans gpress Ht Hgp F ds l HF fgrav s Hnc Hfl (sized_of s Hs1 Hs2)) as (G & s' & E & HG & _ & H).
  rewrite Hd in E. exists G, s'. split; [done|]. destruct (H Hd) as (d & _ & HA & _). intros i j. rewrite !HA.
  rewrite (oa_sym g cf Hg wrows trans gpress Ht Hgp F ds l HF G i j).
  by rewrite (decide_ext (0%nat = i ∧ 0%nat = j) (0%nat = j ∧ 0%nat = i)) by lia.
Qed.
Theorem C35_semidefinite fgrav s : length fgrav = u_nf g → length (s_sa s) = a_nnz A → length (s_b s) = a_m A →
  (∀ d, d ∈ ds → d ≠ Unsupported) → Forall (Rle 0) trans → nonneg_wells F →
  ∃ G s' fr, assemble_incompressible bsearch g A trans gpress F fgrav s = Some (G, s', fr, true) ∧
    ∀ X : nat → R, 0 <= rsum (λ i, X i * rsum (λ j, mat A (s_sa s') i j * X j) (seq 0 (a_m A))) (seq 0 (a_m A)).
Proof.
  intros Hfl Hs1 Hs2 Hd Hnt Hnw. apply supported_all in Hd.
  destruct (assembled bsearch Hbs g cf Hg A wrows ja rows Hp trans gpress Ht Hgp F ds l HF fgrav s Hfl (sized_of s Hs1 Hs2)) as (G & s' & ok & E & HG & _ & Hok & H).
  rewrite Hd in Hok. subst ok. destruct (H eq_refl) as [HA HB]. eexists G, s', _. split; [done|]. intros X.
  assert (Hv : Forall (valid rows) (opsF G)) by (by eapply opsF_valid).
  rewrite (rsum_ext _ (λ i, X i * rsum (λ j, oa (opsF G) i j * X j) (seq 0 (a_m A)))).
  2: { intros i _. f_equal. apply rsum_ext. intros j _. by rewrite HA. }
  rewrite (energy_sum g cf Hg A wrows ja rows Hp trans gpress Ht Hgp X _ Hv), (energy_ops g cf Hg wrows trans gpress Ht Hgp F ds l HF G X).
  destruct (energy_nonneg g wrows trans F ds l X Hnt Hnw) as (N1 & N2 & N3).
  pose proof (rsum_nonneg _ _ N1). pose proof (rsum_nonneg _ _ N2). pose proof (rsum_nonneg _ _ N3). lra.
Qed.

(** ** C36: mass balance
    Whatever solves the assembled system, the reported fluxes obey the flux
    laws at every face and perforation and balance the sources and wells in
    every cell.  When nothing fixes the pressure level, what enters altogether
    is missing in cell 0 (nothing if sources and rates balance). *)
Theorem C36_balance fgrav s : (0 < nc)%nat → length fgrav = u_nf g → length (s_sa s) = a_nnz A → length (s_b s) = a_m A →
  (∀ d, d ∈ ds → d ≠ Unsupported) → nonneg_wells F →
  ∃ G s', ifs_assemble bsearch g A trans gpress F fgrav s = Some (G, s', true) ∧
  ∀ x cpress fflux wpress wflux, length x = a_m A → solves A (s_sa s') (s_b s') x →
    length cpress = nc → length fflux = u_nf g → length wpress = length wrows → length wflux = length (concat wrows) →
    ∃ ff wp wf, press_flux g trans F G x cpress fflux (Some wpress) (Some wflux) = Some (take nc x, ff, Some wp, Some wf) ∧
      face_law g trans gpress l x ff ∧ well_law g F ds x wp wf ∧
      (∀ c r, cf !! c = Some r → ¬ (c = 0%nat ∧ level_free ds l) → rsum (out g ff c) r = source F c + inflow F wf c) ∧
      (∀ r, cf !! 0%nat = Some r → level_free ds l → rsum (out g ff 0) r = source F 0 + inflow F wf 0 - total_in g F ds l).
Proof.
  intros Hnc Hfl Hs1 Hs2 Hd Hnw. apply supported_all in Hd.
  destruct (ifs_assembled bsearch Hbs g cf Hg A wrows ja rows Hp trans gpress Ht Hgp F ds l HF fgrav s Hnc Hfl (sized_of s Hs1 Hs2)) as (G & s' & E & HG & _ & H).
  rewrite Hd in E. exists G, s'. split; [done|]. destruct (H Hd) as (d & Hd0 & HA & HB).
  intros x cpress fflux wpress wflux Hx Hsol L1 L2 L3 L4. pose proof (pt_m _ _ _ _ _ Hp) as Hm.
  assert (Hv : Forall (valid rows) (opsF G)) by (by eapply opsF_valid).
  pose proof (solves_res g cf Hg A wrows ja rows Hp trans gpress Ht Hgp _ _ x (opsF G) d Hv Hnc HA HB Hsol) as Hres.
  set (e0 := d * default 0 (x !! 0%nat)) in *.
  assert (Hw : ∀ w, (w < length wrows)%nat → rsum (res1 (vec x) (nc + w)) (opsF G) = 0).
  { intros w Hw. rewrite Hres by lia. rewrite decide_False by lia. lra. }
  destruct (results g cf Hg A wrows ja rows Hp trans gpress Ht Hgp F ds l HF G x (λ c, if decide (c = 0%nat) then e0 else 0) cpress fflux wpress wflux HG Hd Hnw Hx)
    as (ff & wp & wf & E1 & H1 & H2 & H3); try done.
  { intros c Hc. apply Hres. lia. }
  exists ff, wp, wf. split; [done|]. split; [done|]. split; [done|]. split.
  - intros c r Hr Hn. rewrite (H3 c r Hr). destruct (decide (c = 0%nat)) as [->|]; [|lra].
    assert (free ds l = false) as Hfr. { apply not_true_iff_false. rewrite free_spec. intros Hf. by apply Hn. }
    unfold e0. rewrite (Hd0 Hfr). lra.
  - intros r Hr Hlf. rewrite (H3 0%nat r Hr). rewrite decide_True by done.
    enough (e0 = total_in g F ds l) by lra. apply free_spec in Hlf.
    pose proof (tot_opsF g cf Hg wrows trans gpress Ht Hgp F ds l HF G (vec x) HG Hlf Hw) as Et.
    rewrite <- (res_total (vec x) (a_m A) _ (ops_rows g A wrows ja rows Hp _ Hv)) in Et.
    rewrite (rsum_ext _ (λ i, if decide (i = 0%nat) then - e0 else 0)) in Et.
    2: { intros i Hi%elem_of_seq. rewrite Hres by lia. destruct (decide _); lra. }
    rewrite (rsum_single (λ _, - e0)) in Et; [lra|apply NoDup_seq|apply elem_of_seq; lia].
Qed.
(** A control that is not supported is reported. *)
Theorem C36_unsupported fgrav s : (0 < nc)%nat → length fgrav = u_nf g → length (s_sa s) = a_nnz A → length (s_b s) = a_m A →
  Unsupported ∈ ds → ∃ G s', ifs_assemble bsearch g A trans gpress F fgrav s = Some (G, s', false).
Proof.
  intros Hnc Hfl Hs1 Hs2 Hd.
  destruct (ifs_assembled bsearch Hbs g cf Hg A wrows ja rows Hp trans gpress Ht Hgp F ds l HF fgrav s Hnc Hfl (sized_of s Hs1 Hs2)) as (G & s' & E & _).
  exists G, s'. rewrite E. repeat f_equal. apply not_true_iff_false. rewrite forallb_forall. intros H. specialize (H Unsupported). rewrite <- elem_of_list_In in H.
  by specialize (H Hd).
Qed.

(** ** C36: the solution determines the fluxes
    With nonnegative transmissibilities, any two solutions of the assembled
    system give the same fluxes over all faces. *)
Theorem C36_flux_unique fgrav s : (0 < nc)%nat → length fgrav = u_nf g → length (s_sa s) = a_nnz A → length (s_b s) = a_m A →
  (∀ d, d ∈ ds → d ≠ Unsupported) → Forall (Rle 0) trans → nonneg_wells F →
  ∃ G s', ifs_assemble bsearch g A trans gpress F fgrav s = Some (G, s', true) ∧
  ∀ x y cpx ffx wpx wfx cpy ffy wpy wfy cpress fflux wpress wflux,
    length x = a_m A → solves A (s_sa s') (s_b s') x → length y = a_m A → solves A (s_sa s') (s_b s') y →
    length cpress = nc → length fflux = u_nf g → length wpress = length wrows → length wflux = length (concat wrows) →
    press_flux g trans F G x cpress fflux (Some wpress) (Some wflux) = Some (cpx, ffx, wpx, wfx) →
    press_flux g trans F G y cpress fflux (Some wpress) (Some wflux) = Some (cpy, ffy, wpy, wfy) →
    ffx = ffy.
Proof.
  intros Hnc Hfl Hs1 Hs2 Hd Hnt Hnw. apply supported_all in Hd.
  destruct (ifs_assembled bsearch Hbs g cf Hg A wrows ja rows Hp trans gpress Ht Hgp F ds l HF fgrav s Hnc Hfl (sized_of s Hs1 Hs2)) as (G & s' & E & HG & _ & H).
  rewrite Hd in E. exists G, s'. split; [done|]. destruct (H Hd) as (d & Hd0 & HA & HB).
  intros x y cpx ffx wpx wfx cpy ffy wpy wfy cpress fflux wpress wflux Hx Hsx Hy Hsy L1 L2 L3 L4 Ex Ey. pose proof (pt_m _ _ _ _ _ Hp) as Hm.
  assert (Hv : Forall (valid rows) (opsF G)) by (by eapply opsF_valid).
  pose proof (solves_res g cf Hg A wrows ja rows Hp trans gpress Ht Hgp _ _ x (opsF G) d Hv Hnc HA HB Hsx) as Rx.
  pose proof (solves_res g cf Hg A wrows ja rows Hp trans gpress Ht Hgp _ _ y (opsF G) d Hv Hnc HA HB Hsy) as Ry.
  assert (Hwx : ∀ w, (w < length wrows)%nat → rsum (res1 (vec x) (nc + w)) (opsF G) = 0) by (intros w ?; rewrite Rx by lia; rewrite decide_False by lia; lra).
  assert (Hwy : ∀ w, (w < length wrows)%nat → rsum (res1 (vec y) (nc + w)) (opsF G) = 0) by (intros w ?; rewrite Ry by lia; rewrite decide_False by lia; lra).
  (* the first diagonal term vanishes in the difference *)
  assert (He : d * default 0 (x !! 0%nat) = d * default 0 (y !! 0%nat)).
  { destruct (free ds l) eqn:Ef; [|rewrite (Hd0 eq_refl); lra].
    assert (Hone : ∀ z : list R, (∀ i, (i < a_m A)%nat → rsum (res1 (vec z) i) (opsF G) = - (if decide (i = 0%nat) then d * default 0 (z !! 0%nat) else 0)) →
      (∀ w, (w < length wrows)%nat → rsum (res1 (vec z) (nc + w)) (opsF G) = 0) → d * default 0 (z !! 0%nat) = total_in g F ds l).
    { intros z Rz Hwz. pose proof (tot_opsF g cf Hg wrows trans gpress Ht Hgp F ds l HF G (vec z) HG Ef Hwz) as Et.
      rewrite <- (res_total (vec z) (a_m A) _ (ops_rows g A wrows ja rows Hp _ Hv)) in Et.
      rewrite (rsum_ext _ (λ i, if decide (i = 0%nat) then - (d * default 0 (z !! 0%nat)) else 0)) in Et.
      2: { intros i Hi%elem_of_seq. rewrite Rz by lia. destruct (decide _); lra. }
      rewrite (rsum_single (λ _, - (d * default 0 (z !! 0%nat)))) in Et; [lra|apply NoDup_seq|apply elem_of_seq; lia]. }
    by rewrite (Hone x Rx Hwx), (Hone y Ry Hwy). }
  set (Z := λ k, default 0 (x !! k) - default 0 (y !! k)).
  assert (Hen : rsum (en1 Z) (opsF G) = 0).
  { rewrite <- (energy_sum g cf Hg A wrows ja rows Hp trans gpress Ht Hgp Z _ Hv). apply rsum_zero. intros i Hi%elem_of_seq.
    enough (rsum (λ j, oa (opsF G) i j * Z j) (seq 0 (a_m A)) = 0) as -> by lra.
    pose proof (res_sum (vec x) i (a_m A) _ (ops_cols g cf Hg A wrows ja rows Hp _ Hv)) as Sx. pose proof (res_sum (vec y) i (a_m A) _ (ops_cols g cf Hg A wrows ja rows Hp _ Hv)) as Sy.
    rewrite Rx in Sx by lia. rewrite Ry in Sy by lia.
    rewrite (rsum_ext _ (λ j, oa (opsF G) i j * default 0 (x !! j) + - (oa (opsF G) i j * default 0 (y !! j)))) by (intros j _; unfold Z; lra).
    rewrite rsum_plus, rsum_opp. destruct (decide (i = 0%nat)); lra. }
  rewrite (energy_ops g cf Hg wrows trans gpress Ht Hgp F ds l HF G Z) in Hen.
  destruct (energy_nonneg g wrows trans F ds l Z Hnt Hnw) as (N1 & N2 & N3).
  pose proof (rsum_nonneg _ _ N1) as P1. pose proof (rsum_nonneg _ _ N2) as P2. pose proof (rsum_nonneg _ _ N3) as P3.
  pose proof (rsum_nonneg_zero _ _ N1 ltac:(lra)) as Z1. pose proof (rsum_nonneg_zero _ _ N3 ltac:(lra)) as Z3.
  destruct (press_flux_ok g cf Hg A wrows ja rows Hp trans gpress Ht Hgp F ds l HF G x cpress fflux wpress wflux HG Hx L1 L2 L3 L4)
    as (cp1 & ff1 & wp1 & wf1 & E1 & _ & Fx & _). rewrite Ex in E1. injection E1 as -> -> -> ->.
  destruct (press_flux_ok g cf Hg A wrows ja rows Hp trans gpress Ht Hgp F ds l HF G y cpress fflux wpress wflux HG Hy L1 L2 L3 L4)
    as (cp2 & ff2 & wp2 & wf2 & E2 & _ & Fy & _). rewrite Ey in E2. injection E2 as -> -> -> ->.
  destruct Fx as (Lx & Ix & Bx & Nx). destruct Fy as (Ly & Iy & By & Ny).
  apply list_eq. intros f. destruct (decide (f < u_nf g)%nat) as [Hf|Hf]; [|rewrite !lookup_ge_None_2 by lia; done].
  destruct (face_data g cf Hg f Hf) as (a & b & Hab). pose proof (ok_range _ _ Hg _ _ _ Hab) as (Ra & Rb & Rab).
  assert (Hsq : ∀ t u, t * (u * u) = 0 → t * u = 0).
  { intros t u H0. destruct (Rmult_integral _ _ H0) as [->|H1]; [lra|]. destruct (Rmult_integral _ _ H1) as [->| ->]; lra. }
  destruct (decide (0 <= a ∧ 0 <= b)%Z) as [[Ha Hb]|Hn].
  - pose proof (Z1 f ltac:(apply elem_of_seq; lia)) as Ez. unfold eface in Ez. pose proof Hab as [Ea Eb]. rewrite Ea, Eb in Ez.
    rewrite !bool_decide_eq_true_2 in Ez by done. cbn [andb] in Ez. apply Hsq in Ez.
    rewrite <- (Z2Nat.id a), <- (Z2Nat.id b) in Hab by lia. rewrite (Ix _ _ _ Hab), (Iy _ _ _ Hab). f_equal. unfold Z in Ez. lra.
  - destruct (decide (f ∈ snd <$> bcs l)) as [Hin|Hin].
    + apply elem_of_list_fmap in Hin as ([[ty v] f'] & Ef & Hin). cbn [snd] in Ef. subst f'. rewrite (Bx _ _ _ Hin), (By _ _ _ Hin).
      pose proof (Z3 _ Hin) as Ez. unfold ebc in Ez. cbn [fst snd] in Ez. unfold bpart. cbn [fst snd]. destruct ty; [done| |done].
      apply Hsq in Ez. f_equal. f_equal. unfold Z in Ez. lra.
    + rewrite (Nx f a b Hab), (Ny f a b Hab) by (done || lia). done.
Qed.

(** ** C36: compressible rock
    The balance includes the change of pore volume. *)
Theorem C36_comprock fgrav s porevol rock_comp pressure dt :
  length fgrav = u_nf g → length (s_sa s) = a_nnz A → length (s_b s) = a_m A →
  (∀ d, d ∈ ds → d ≠ Unsupported) → nonneg_wells F → dt ≠ 0 →
  length porevol = nc → length rock_comp = nc → length pressure = nc →
  ∃ G s', ifs_assemble_comprock bsearch g A trans gpress F porevol rock_comp pressure dt fgrav s = Some (G, s', true) ∧
  ∀ x cpress fflux wpress wflux, length x = a_m A → solves A (s_sa s') (s_b s') x →
    length cpress = nc → length fflux = u_nf g → length wpress = length wrows → length wflux = length (concat wrows) →
    ∃ ff wp wf, press_flux g trans F G x cpress fflux (Some wpress) (Some wflux) = Some (take nc x, ff, Some wp, Some wf) ∧
      face_law g trans gpress l x ff ∧ well_law g F ds x wp wf ∧
      ∀ c r pv rc p0, cf !! c = Some r → porevol !! c = Some pv → rock_comp !! c = Some rc → pressure !! c = Some p0 →
        rsum (out g ff c) r + pv * rc * (default 0 (x !! c) - p0) / dt = source F c + inflow F wf c.
Proof.
  intros Hfl Hs1 Hs2 Hd Hnw Hdt Lpv Lrc Lp. apply supported_all in Hd.
  destruct (assembled bsearch Hbs g cf Hg A wrows ja rows Hp trans gpress Ht Hgp F ds l HF fgrav s Hfl (sized_of s Hs1 Hs2)) as (G & s1 & ok & E & HG & Hsz & Hok & H).
  rewrite Hd in Hok. subst ok. destruct (H eq_refl) as [HA HB]. unfold ifs_assemble_comprock. rewrite E. cbn [mbind option_bind].
  set (dd := λ c, default 0 (porevol !! c) * default 0 (rock_comp !! c) / dt).
  set (qq := λ c, dd c * default 0 (pressure !! c)).
  assert (for_loop nc 0 (comprock_body bsearch A porevol rock_comp pressure dt) s1 = run (exec bsearch A) (accum_ops dd qq nc) s1) as ->.
  { rewrite for_loop_run. unfold accum_ops. rewrite run_concat. apply run_ext. intros c s2 Hc%elem_of_seq.
    destruct (diag_idx bsearch Hbs g A wrows ja rows Hp trans gpress Ht Hgp c ltac:(lia)) as [j Ej].
    destruct (lookup_lt_is_Some_2 porevol c) as [pv Epv]; [lia|]. destruct (lookup_lt_is_Some_2 rock_comp c) as [rc Erc]; [lia|].
    destruct (lookup_lt_is_Some_2 pressure c) as [p Ep]; [lia|].
    unfold comprock_body, qq, dd. cbn [run]. unfold exec. rewrite Ej, Epv, Erc, Ep. cbn [mbind option_bind]. rewrite rdiv_Some by done. cbn [mbind option_bind default from_option]. unfold Datatypes.id.
    destruct (adda j _ s2) as [s3|]; [|done]. cbn [mbind option_bind]. by destruct (addb c _ s3). }
  destruct (execs_ok bsearch Hbs A ja rows (pt_ja _ _ _ _ _ Hp) (pt_rows _ _ _ _ _ Hp) (λ i r H, proj1 (pt_coup _ _ _ _ _ Hp i r H)) _ s1 (accum_valid g A wrows ja rows Hp trans gpress Ht Hgp dd qq) Hsz) as (s2 & E2 & Hsz2 & HA2 & HB2).
  rewrite E2. cbn [mbind option_bind]. exists G, s2. split; [done|].
  intros x cpress fflux wpress wflux Hx Hsol L1 L2 L3 L4.
  destruct (accum_res g cf Hg A wrows ja rows Hp trans gpress Ht Hgp F ds l HF (s_sa s2) (s_b s2) x G dd qq) as [Rc Rw]; try done.
  { intros i j. by rewrite HA2, HA. }
  { intros k Hk. by rewrite HB2, (HB k Hk). }
  destruct (results g cf Hg A wrows ja rows Hp trans gpress Ht Hgp F ds l HF G x (λ c, dd c * default 0 (x !! c) - qq c) cpress fflux wpress wflux HG Hd Hnw Hx)
    as (ff & wp & wf & E1 & H1 & H2 & H3); try done.
  exists ff, wp, wf. split; [done|]. split; [done|]. split; [done|]. intros c r pv rc p0 Hr Epv Erc Ep. rewrite (H3 c r Hr).
  unfold qq, dd. rewrite Epv, Erc, Ep. cbn [default from_option]. unfold Datatypes.id. field. done.
Qed.

(** ** C36: increments
    With a previous pressure [prev], the pressure [prev + dx] has balanced
    fluxes; the pore volume changes by [pv - pv0] and by the increment. *)
Theorem C36_increment fgrav s porevol rock_comp prev initial work dt F' :
  F = Some F' → length fgrav = u_nf g → length (s_sa s) = a_nnz A → length (s_b s) = a_m A →
  (∀ d, d ∈ ds → d ≠ Unsupported) → nonneg_wells F → dt ≠ 0 →
  length porevol = nc → length rock_comp = nc → length initial = nc → length prev = a_m A → length work = a_m A →
  ∃ G s', ifs_assemble_increment bsearch g A trans gpress F porevol rock_comp prev initial dt work fgrav s = Some (G, s', true) ∧
  ∀ dx x cpress fflux wpress wflux, length dx = a_m A → solves A (s_sa s') (s_b s') dx → x = zip_with Rplus prev dx →
    length cpress = nc → length fflux = u_nf g → length wpress = length wrows → length wflux = length (concat wrows) →
    ∃ ff wp wf, press_flux g trans F G x cpress fflux (Some wpress) (Some wflux) = Some (take nc x, ff, Some wp, Some wf) ∧
      face_law g trans gpress l x ff ∧ well_law g F ds x wp wf ∧
      ∀ c r pv rc pv0, cf !! c = Some r → porevol !! c = Some pv → rock_comp !! c = Some rc → initial !! c = Some pv0 →
        rsum (out g ff c) r + (pv - pv0 + pv * rc * default 0 (dx !! c)) / dt = source F c + inflow F wf c.
Proof.
  intros EF Hfl Hs1 Hs2 Hd Hnw Hdt Lpv Lrc Lin Lprev Lwork. apply supported_all in Hd.
  destruct (assembled bsearch Hbs g cf Hg A wrows ja rows Hp trans gpress Ht Hgp F ds l HF fgrav s Hfl (sized_of s Hs1 Hs2)) as (G & s1 & ok & E & HG & Hsz & Hok & H).
  rewrite Hd in Hok. subst ok. destruct (H eq_refl) as [HA HB]. unfold ifs_assemble_increment. rewrite E. cbn [mbind option_bind].
  pose proof (pt_m _ _ _ _ _ Hp) as Hm. pose proof (pt_len _ _ _ _ _ Hp) as Hlen.
  destruct (mult_ok g cf Hg A wrows ja rows Hp trans gpress Ht Hgp (s_sa s1) prev work) as (v & Ev & Lv & Hv); [apply Hsz|done|done|].
  rewrite Ev. cbn [mbind option_bind].
  set (dd := λ c, default 0 (porevol !! c) * default 0 (rock_comp !! c) / dt).
  set (dp := λ c, (default 0 (porevol !! c) - default 0 (initial !! c)) / dt).
  set (V := λ k, rsum (λ j, mat A (s_sa s1) k j * default 0 (prev !! j)) (seq 0 (a_m A))).
  set (qq := λ c, - (dp c + V c)).
  assert (for_loop nc 0 (increment_body bsearch A porevol rock_comp initial dt v) s1 = run (exec bsearch A) (accum_ops dd qq nc) s1) as ->.
  { rewrite for_loop_run. unfold accum_ops. rewrite run_concat. apply run_ext. intros c s2 Hc%elem_of_seq.
    destruct (diag_idx bsearch Hbs g A wrows ja rows Hp trans gpress Ht Hgp c ltac:(lia)) as [j Ej].
    destruct (lookup_lt_is_Some_2 porevol c) as [pv Epv]; [lia|]. destruct (lookup_lt_is_Some_2 rock_comp c) as [rc Erc]; [lia|].
    destruct (lookup_lt_is_Some_2 initial c) as [p Ep]; [lia|].
    unfold increment_body, qq, dp, dd. cbn [run]. unfold exec. rewrite Ej, Epv, Erc, Ep, (Hv c ltac:(lia)). cbn [mbind option_bind]. rewrite !rdiv_Some by done. cbn [mbind option_bind default from_option]. unfold Datatypes.id.
    destruct (adda j _ s2) as [s3|]; [|done]. cbn [mbind option_bind]. unfold V. by destruct (addb c _ s3). }
  assert (HEX := execs_ok bsearch Hbs A ja rows (pt_ja _ _ _ _ _ Hp) (pt_rows _ _ _ _ _ Hp) (λ i r H, proj1 (pt_coup _ _ _ _ _ Hp i r H))).
  destruct (HEX _ s1 (accum_valid g A wrows ja rows Hp trans gpress Ht Hgp dd qq) Hsz) as (s2 & E2 & Hsz2 & HA2 & HB2).
  rewrite E2. cbn [mbind option_bind].
  assert (HVZ : ∀ w, (w < length wrows)%nat → F_W F' = None → V (nc + w)%nat = 0).
  { intros w Hw EW. pose proof (no_well_rows g cf Hg wrows trans gpress Ht Hgp F ds l HF G (vec prev) F' w EF EW Hw) as R1.
    pose proof (no_well_rows g cf Hg wrows trans gpress Ht Hgp F ds l HF G (λ _, 0) F' w EF EW Hw) as R2.
    assert (Hval : Forall (valid rows) (opsF G)) by (by eapply opsF_valid).
    rewrite <- (res_sum _ _ (a_m A) _ (ops_cols g cf Hg A wrows ja rows Hp _ Hval)) in R1. rewrite <- (res_sum _ _ (a_m A) _ (ops_cols g cf Hg A wrows ja rows Hp _ Hval)) in R2.
    rewrite (rsum_zero (λ j, oa (opsF G) (nc + w) j * 0)) in R2 by (intros; lra).
    unfold V. rewrite (rsum_ext _ (λ j, oa (opsF G) (nc + w) j * default 0 (prev !! j))) by (intros j _; by rewrite HA). lra. }
  assert (∃ s3, match F_W F' with Some W => for_loop (w_nw W) nc (λ k s, x ← v !! k; addb k (- x) s) s2 | None => Some s2 end = Some s3 ∧
    s_sa s3 = s_sa s2 ∧ ∀ k, (k < a_m A)%nat → s_b s3 !! k = (λ y, y + if decide (k < nc)%nat then 0 else - V k) <$> s_b s2 !! k) as (s3 & E3 & HA3 & HB3).
  { destruct (F_W F') as [W|] eqn:EW.
    - pose proof HF as H0. rewrite EF in H0. destruct H0 as (HW & _). rewrite EW in HW. destruct HW as (Hok & _). rewrite (wk_nw _ _ _ _ Hok).
      destruct (for_loop_inv (λ i s', s_sa s' = s_sa s2 ∧ length (s_b s') = a_m A ∧ ∀ k, (k < a_m A)%nat → s_b s' !! k = (λ y, y + if decide (k < nc ∨ i <= k)%nat then 0 else - V k) <$> s_b s2 !! k)
        (length wrows) nc (λ k s, x ← v !! k; addb k (- x) s) s2) as (s3 & E3 & H1 & H2 & H3).
      + split; [done|]. split; [destruct Hsz2; lia|]. intros k _. rewrite decide_True by lia. destruct (s_b s2 !! k); [|done]. cbn. f_equal. lra.
      + intros i s' Hi (H1 & H2 & H3). rewrite (Hv i ltac:(lia)). cbn [mbind option_bind]. fold (V i). unfold addb.
        destruct (lookup_lt_is_Some_2 (s_b s') i) as [y Ey]; [lia|]. rewrite (addto_Some _ _ _ _ Ey). cbn [mbind option_bind].
        eexists. split; [done|]. cbn [s_sa s_b]. split; [done|]. split; [by rewrite insert_length|]. intros k Hk.
        destruct (decide (k = i)) as [->|Hn].
        * rewrite list_lookup_insert by lia. rewrite (H3 i) in Ey by lia. destruct (s_b s2 !! i) as [z|]; [|done]. cbn in Ey |- *.
          injection Ey as <-. f_equal. rewrite decide_True by lia. rewrite decide_False by lia. lra.
        * rewrite list_lookup_insert_ne by done. rewrite H3 by done. by rewrite (decide_ext (k < nc ∨ i <= k)%nat (k < nc ∨ i + 1 <= k)%nat) by lia.
      + exists s3. split; [done|]. split; [done|]. intros k Hk. rewrite H3 by done. by rewrite (decide_ext (k < nc ∨ nc + length wrows <= k)%nat (k < nc)%nat) by lia.
    - exists s2. split; [done|]. split; [done|]. intros k Hk. destruct (s_b s2 !! k) as [y|]; [|done]. cbn. f_equal. destruct (decide _); [lra|].
      replace k with (nc + (k - nc))%nat by lia. rewrite HVZ by (done || lia). lra. }
  assert (EFm : ∀ (f : forces name_t → option (list R * sys * bool)), (F0 ← F; f F0) = f F') by (intros f; by rewrite EF).
  rewrite EFm, E3. cbn [mbind option_bind]. exists G, s3. split; [done|].
  intros dx x cpress fflux wpress wflux Ldx Hsol -> L1 L2 L3 L4.
  assert (Hval : Forall (valid rows) (opsF G)) by (by eapply opsF_valid).
  assert (Hz : ∀ k, (k < a_m A)%nat → default 0 (zip_with Rplus prev dx !! k) = default 0 (prev !! k) + default 0 (dx !! k)).
  { intros k Hk. rewrite lookup_zip_with. destruct (lookup_lt_is_Some_2 prev k) as [y ->]; [lia|]. by destruct (lookup_lt_is_Some_2 dx k) as [z ->]; [lia|]. }
  assert (Hk : ∀ k, (k < a_m A)%nat → rsum (res1 (vec (zip_with Rplus prev dx)) k) (opsF G) = - (if decide (k < nc)%nat then dd k * default 0 (dx !! k) + dp k else 0)).
  { intros k Hk. specialize (Hsol k Hk). rewrite HA3 in Hsol. rewrite (HB3 k Hk), HB2, (HB k Hk) in Hsol. cbn [fmap option_fmap option_map] in Hsol. change (default 0 (Some ?y)) with y in Hsol.
    rewrite <- (res_sum _ k (a_m A) _ (ops_cols g cf Hg A wrows ja rows Hp _ Hval)).
    rewrite (rsum_ext _ (λ j, oa (opsF G) k j * default 0 (prev !! j) + oa (opsF G) k j * default 0 (dx !! j))).
    2: { intros j Hj%elem_of_seq. rewrite Hz by lia. lra. }
    rewrite rsum_plus.
    rewrite (rsum_ext (λ j, mat A (s_sa s2) k j * default 0 (dx !! j)) (λ j, oa (opsF G) k j * default 0 (dx !! j) + (if decide (j = k) then (if decide (k < nc)%nat then dd k * default 0 (dx !! k) else 0) else 0))) in Hsol.
    2: { intros j _. rewrite HA2, HA, accum_oa. destruct (decide (j = k)) as [->|Hn].
         - rewrite (decide_ext (k = k ∧ (k < nc)%nat) (k < nc)%nat) by lia. destruct (decide _); lra.
         - rewrite decide_False by lia. lra. }
    rewrite rsum_plus in Hsol. rewrite (rsum_single (λ _, if decide (k < nc)%nat then dd k * default 0 (dx !! k) else 0)) in Hsol; [|apply NoDup_seq|apply elem_of_seq; lia].
    assert (rsum (λ j, oa (opsF G) k j * default 0 (prev !! j)) (seq 0 (a_m A)) = V k) as ->.
    { unfold V. apply rsum_ext. intros j _. by rewrite HA. }
    rewrite accum_ob in Hsol. unfold qq in Hsol. destruct (decide (k < nc)%nat); lra. }
  destruct (results g cf Hg A wrows ja rows Hp trans gpress Ht Hgp F ds l HF G (zip_with Rplus prev dx) (λ c, dd c * default 0 (dx !! c) + dp c) cpress fflux wpress wflux HG Hd Hnw)
    as (ff & wp & wf & E1 & H1 & H2 & H3); try done.
  { rewrite zip_with_length. lia. }
  { intros c Hc. rewrite Hk by lia. by rewrite decide_True. }
  { intros w Hw. rewrite Hk by lia. rewrite decide_False by lia. lra. }
  exists ff, wp, wf. split; [done|]. split; [done|]. split; [done|]. intros c r pv rc p0 Hr Epv Erc Ep. rewrite (H3 c r Hr).
  unfold dp, dd. rewrite Epv, Erc, Ep. cbn [default from_option]. unfold Datatypes.id. field. done.
Qed.
(** Matrix times vector by rows. *)
Theorem C36_mult sa u v : length sa = a_nnz A → length u = a_m A → length v = a_m A →
  ∃ v', mult_csr A sa u v = Some v' ∧ length v' = a_m A ∧
    ∀ i, (i < a_m A)%nat → v' !! i = Some (rsum (λ j, mat A sa i j * default 0 (u !! j)) (seq 0 (a_m A))).
Proof. intros H. apply (mult_ok g cf Hg A wrows ja rows Hp trans gpress Ht Hgp). by rewrite H, (pt_nnz _ _ _ _ _ Hp). Qed.
End thms.
Print Assumptions C35_system. Print Assumptions C35_symmetric. Print Assumptions C35_semidefinite.
Print Assumptions C36_balance. Print Assumptions C36_unsupported. Print Assumptions C36_flux_unique.
Print Assumptions C36_comprock. Print Assumptions C36_increment. Print Assumptions C36_mult.

(** ** Cases meeting the hypotheses *)
(** The ring of three cells: a well in cells 0 and 1 with a rate of 3, a well
    in cell 2 with pressure 10, pressure 5 on the boundary face of cell 0 and
    an inflow of 2 over that of cell 2. *)
Definition ex_wells : @wells R nat := Wells 2 2 [INJECTOR; PRODUCER] [0; 0] [] [0; 2; 3]%nat [0; 1; 2]%Z [1; 1; 1]
  [Some (Ctrl 2 [BHP; RESERVOIR_RATE] [100; 3] [0; 0; 1; 1] 1 2); Some (Ctrl 1 [BHP] [10] [0; 0] 0 1)] [] 2 3.
Definition ex_forces : option (forces nat) :=
  Some (Forces _ None (Some (FlowBC 2 [0; 1; 2]%nat [BC_PRESSURE; BC_FLUX_TOTVOL] [5; 2] [3; 4]%Z)) (Some ex_wells) (Some [1; 1; 1]) (Some [0; 0; 0])).
Definition ex_ds := [Rate 3; Pressure 10].
Definition ex_bc : list bcitem := [(BC_PRESSURE, 5, [3%nat]); (BC_FLUX_TOTVOL, 2, [4%nat])].
Lemma ex_forces_ok : forces_ok ring [[0; 1]; [2]]%nat ex_forces ex_ds ex_bc.
Proof.
  split_and!.
  - split.
    + constructor; try done.
      * intros [|[|w]] r b [= <-] [= <-]; done.
      * intros [|[|w]] r b [|[|t]] c [= <-] [= <-] [= <-]; cbn; split_and!; try done; try lia; by eexists.
      * intros [|[|w]] d [= <-]; eexists; (split; [done|]); unfold demand_of; cbn.
        -- eexists _, _. split; [lia|]. split; [done|]. split; [done|]. split.
           ++ intros [|[|t]] ?; [by eexists|by eexists|lia].
           ++ left. split; [done|]. intros [|[|t]] ?; [done|done|lia].
        -- eexists _, _. split; [lia|]. split; [done|]. split; [done|]. split; [|done].
           intros [|[|t]] ?; [by eexists|by eexists|lia].
    + by eexists _, _.
  - constructor; try done.
    + intros [|[|i]] it [= <-]; cbn; (split; [done|]); (split; [done|]); eexists; (split; [done|]); (split; [done|]); intros [|t] f [= <-]; done.
    + intros v fs H. repeat (apply elem_of_cons in H as [[= -> ->]|H]); [done|by apply elem_of_nil in H].
    + cbn. intros ty v f H. apply elem_of_cons in H as [[= -> -> ->]|H]; [exists 0%nat; split; [lia|right; done]|].
      apply elem_of_cons in H as [[= -> -> ->]|H]; [exists 2%nat; split; [lia|left; done]|by apply elem_of_nil in H].
    + cbn. apply NoDup_cons. split; [|apply NoDup_singleton]. rewrite elem_of_list_singleton. done.
  - done.
Qed.
Lemma ex_nonneg : nonneg_wells ex_forces.
Proof.
  intros F' W mt [= <-] [= <-] [= <-]. split; repeat (apply Forall_cons; split; [lra|]); done.
Qed.
Definition ex_csr : csr :=
  Csr 5 17 [0;4;8;12;15;17]%nat (Some [0;1;2;3; 0;1;2;3; 0;1;2;4; 0;1;3; 2;4]%nat).
Lemma ex_construct : construct_matrix qsort0 (λ _, 77%nat) 3 (face_pairs ring) (Some [[0; 1]; [2]]%nat) [] = Some (Some ex_csr, []).
Proof. by vm_compute. Qed.
(** The system of this case has the solution below; by [C36_balance] the fluxes
    balance. *)
Definition ex_x : list R := [197/21; 220/21; 223/21; 80/7; 10].
Example C36_example_solution : ∃ G s',
  ifs_assemble bsearch0 ring ex_csr [1;1;1;1;1] [0;0;0;0;0;0;0;0] ex_forces [9;9;9;9;9] (Sys (replicate 17 7) (replicate 5 7)) = Some (G, s', true) ∧
  solves ex_csr (s_sa s') (s_b s') ex_x.
Proof.
  eexists _, _. split.
  - cbv -[Rplus Rmult Ropp Rminus Req_EM_T IZR].
    destruct (Req_EM_T 1 1) as [e|n]; [|by destruct n]. reflexivity.
  - intros i Hi. do 5 (destruct i as [|i]; [cbv -[Rplus Rmult Ropp Rminus Rinv Rdiv IZR]; lra|]). cbn in Hi. lia.
Qed.
(** A case without wells in which nothing fixes the pressure level. *)
Definition ex2_csr : csr := Csr 3 9 [0;3;6;9]%nat (Some [0;1;2; 0;1;2; 0;1;2]%nat).
Example C36_example_free : ∃ G s',
  ifs_assemble (name_t := nat) bsearch0 ring ex2_csr [1;1;1;1;1] [0;0;0;0;0;0;0;0] (Some (Forces _ (Some [1; 0; -1]) None None None None)) [9;9;9;9;9]
    (Sys (replicate 9 7) (replicate 3 7)) = Some (G, s', true) ∧
  solves ex2_csr (s_sa s') (s_b s') [0; -1/3; -2/3] ∧ level_free [] [] ∧ forces_ok ring [] (Some (Forces nat (Some [1; 0; -1]) None None None None)) [] [] ∧
  construct_matrix qsort0 (λ _, 77%nat) 3 (face_pairs ring) (Some []) [] = Some (Some ex2_csr, []).
Proof.
  eexists _, _. split; [cbv -[Rplus Rmult Ropp Rminus IZR]; reflexivity|]. split; [|split; [|split]].
  - intros i Hi. do 3 (destruct i as [|i]; [cbv -[Rplus Rmult Ropp Rminus Rinv Rdiv IZR]; lra|]). cbn in Hi. lia.
  - split; intros ? H; by apply elem_of_nil in H.
  - done.
  - by vm_compute.
Qed.

(** ** Refuted: balance when a boundary face has two conditions
    The system adds both conditions, the flux of the second replaces that of
    the first. *)
Definition one_cell : ugrid := UGrid 1 1 [0;1]%nat [0]%nat [0; -1]%Z.
Definition two_bc : flowbc := FlowBC 2 [0;1;2]%nat [BC_PRESSURE; BC_PRESSURE] [1; 3] [0; 0]%Z.
Lemma one_cell_ok : grid_ok one_cell [[0%nat]].
Proof.
  assert (Hf : ∀ f a b, face_between one_cell f a b → f = 0%nat ∧ a = 0%Z ∧ b = (-1)%Z).
  { intros [|f] a b [H1 H2]; [injection H1 as <-; injection H2 as <-; done|]. apply lookup_lt_Some in H1. cbn in H1. lia. }
  constructor; try done.
  - apply (starts_holds [[0%nat]]).
  - intros f a b H. apply Hf in H as (-> & -> & ->). cbn. lia.
  - intros [|c] r Hr; [|done]. injection Hr as <-. apply NoDup_singleton.
  - intros [|c] r f Hr; [|done]. injection Hr as <-. rewrite elem_of_list_singleton. split.
    + intros ->. by exists 0%Z, (-1)%Z; split; [|left].
    + intros (a & b & H & _). by apply Hf in H as (-> & _).
Qed.
Theorem C36_two_conditions_refuted : ∃ (F : forces nat) G s' x ff wp wf,
  F = Forces _ None (Some two_bc) None None None ∧ grid_ok one_cell [[0%nat]] ∧
  ifs_assemble bsearch0 one_cell (Csr 1 1 [0;1]%nat (Some [0%nat])) [1] [0] (Some F) [0] (Sys [0] [0]) = Some (G, s', true) ∧
  solves (Csr 1 1 [0;1]%nat (Some [0%nat])) (s_sa s') (s_b s') x ∧
  press_flux one_cell [1] (Some F) G x [0] [0] (Some []) (Some []) = Some (x, ff, wp, wf) ∧
  rsum (out one_cell ff 0) [0%nat] ≠ source (Some F) 0 + inflow (Some F) [] 0.
Proof.
  eexists _, _, _, [2], _, _, _. split; [done|]. split; [apply one_cell_ok|]. split; [cbv -[Rplus Rmult Ropp Rminus IZR]; reflexivity|]. split; [|split].
  - intros i Hi. destruct i as [|i]; [cbv -[Rplus Rmult Ropp Rminus Rinv Rdiv IZR]; lra|]. cbn in Hi. lia.
  - cbv -[Rplus Rmult Ropp Rminus IZR]; reflexivity.
  - cbv -[Rplus Rmult Ropp Rminus IZR]. lra.
Qed.
Print Assumptions C36_two_conditions_refuted.

(** ** Refuted: the incremental assembly without forces
    The other two variants accept a null pointer for the forces; the
    incremental one dereferences it. *)
Theorem C36_increment_null_refuted : ∃ G s',
  ifs_assemble_comprock (name_t := nat) bsearch0 one_cell (Csr 1 1 [0;1]%nat (Some [0%nat])) [1] [0] None [1] [1] [1] 1 [0] (Sys [0] [0]) = Some (G, s', true) ∧
  ifs_assemble_increment (name_t := nat) bsearch0 one_cell (Csr 1 1 [0;1]%nat (Some [0%nat])) [1] [0] None [1] [1] [1] [1] 1 [0] [0] (Sys [0] [0]) = None.
Proof.
  eexists _, _. split.
  - cbv -[Rplus Rmult Ropp Rminus Rdiv Rinv IZR Req_EM_T]. destruct (Req_EM_T 1 0) as [e|_]; [exfalso; lra|reflexivity].
  - cbv -[Rplus Rmult Ropp Rminus Rdiv Rinv IZR Req_EM_T]. destruct (Req_EM_T 1 0) as [e|_]; reflexivity.
Qed.
Print Assumptions C36_increment_null_refuted.
