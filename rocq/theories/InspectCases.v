(** Cases of inspected grids (C70). *)
From Coq Require Import Reals Lra Psatz.
From Verif Require Import Base LoopModel TableModel TofSpec MiscSpec InspectModel InspectSpec InspectProps InspectDips.
Local Open Scope R_scope.
Unset Default Proof Using.

(** Four vertical pillars at the corners of the unit square. *)
Definition square : list R := [0; 0; 0; 0; 0; 1; 1; 0; 0; 1; 0; 1; 0; 1; 0; 0; 1; 1; 1; 1; 0; 1; 1; 1].
Definition one_cell (z : list R) (spec : bool) : inspector := Inspector 1 1 1 square z spec.
(** A cell whose planes rise by 1 and 2. *)
Definition steep : list R := [0; 1; 2; 3; 10; 11; 12; 13].
(** A flat layer. *)
Definition flat : list R := [0; 0; 0; 0; 1; 1; 1; 1].
(** Two layers, of heights 1 and 2. *)
Definition layers : inspector := Inspector 1 1 2 square [0; 0; 0; 0; 1; 1; 1; 1; 1; 1; 1; 1; 3; 3; 3; 3] true.
(** Evaluates the data of a concrete grid. *)
Local Ltac ev := unfold base_area, quad_area, turn, point, mean_z, corner_z, pillar_x, pillar_y, val;
  cbv [fst snd one_cell layers gi_nx gi_ny gi_nz gi_coord gi_zcorn steep flat square Nat.add Nat.mul Nat.sub lookup list_lookup from_option default Datatypes.id INR].
Lemma square_bound x : x ∈ square → - 100 <= x <= 100.
Proof. intros H. unfold square in H. repeat (apply elem_of_cons in H as [->|H]; [lra|]). by apply elem_of_nil in H. Qed.
Lemma one_cell_ok z s : length z = 8%nat → sizes_ok (one_cell z s) ∧ in_box (one_cell z s) 0 0 0.
Proof. intros H. split; [split; [done|]|]. { cbn. by rewrite H. } split; [cbn; lia|]. split; cbn; lia. Qed.

Example index_case : idx_to_logical (Inspector 3 2 2 [] [] true) 10 = Some (1, 1, 1)%nat.
Proof. exact (C70_index (Inspector 3 2 2 [] [] true) 1 1 1 ltac:(cbn; lia) ltac:(cbn; lia)). Qed.

Lemma steep_tilted s : tilted (one_cell steep s) 0 0 0 1 2.
Proof.
  exists 0, 10. intros a b Ha Hb. destruct a as [|[|a]]; [| |lia]; (destruct b as [|[|b]]; [| |lia]); ev; split; lra.
Qed.
Lemma steep_width s : pillar_x (one_cell steep s) (0 + 1) 0 ≠ pillar_x (one_cell steep s) 0 0 ∧ pillar_y (one_cell steep s) 0 (0 + 1) ≠ pillar_y (one_cell steep s) 0 0.
Proof. ev; split; lra. Qed.
Lemma limits_one z : length z = 8%nat → ∃ xs ys zmin zmax, grid_limits 100 (one_cell z true) = Some (xs, ys, (zmin, zmax)) ∧ least zmin z ∧ greatest zmax z.
Proof.
  intros Hz. destruct (C70_limits 100 (one_cell z true)) as (x0 & x1 & y0 & y1 & z0 & z1 & E & H); [done|by apply one_cell_ok|by destruct z|exact square_bound|].
  cbv zeta in H. destruct H as (_ & _ & _ & _ & H1 & H2). exists (x0, x1), (y0, y1), z0, z1. done.
Qed.
Example dips_case : cell_dips 100 (one_cell steep true) 0 0 0 = Some (1, 2).
Proof.
  destruct (limits_one steep eq_refl) as (xs & ys & zmin & zmax & E & [_ H1] & [_ H2]).
  assert (zmin <= 0) as Hlo by (apply H1; unfold steep; left).
  destruct (one_cell_ok steep true eq_refl) as [Hs Hb]. destruct (steep_width true) as [Wx Wy].
  destruct (C70_dips 100 (one_cell steep true) 0 0 0 1 2 xs ys zmin zmax Hb Hs E (steep_tilted true) Wx Wy) as [H _]. apply H. clear H. rewrite free_x_edges, free_y_edges.
  ev. split.
  - right. left. split; lra.
  - right. left. split; lra.
Qed.

(** A flat layer from top to bottom of the model: no edge counts, the dips are 0/0. *)
Theorem C70_flat_refuted : ∃ M g, gi_spec g = true ∧ sizes_ok g ∧ in_box g 0 0 0 ∧ (∀ x, x ∈ gi_coord g → - M <= x <= M) ∧ tilted g 0 0 0 0 0 ∧
  cell_volume g 0 0 0 = Some 1 ∧ cell_dips M g 0 0 0 = None.
Proof.
  exists 100, (one_cell flat true). destruct (one_cell_ok flat true eq_refl) as [Hs Hb].
  assert (tilted (one_cell flat true) 0 0 0 0 0) as HT.
  { exists 0, 1. intros a b Ha Hb'. destruct a as [|[|a]]; [| |lia]; (destruct b as [|[|b]]; [| |lia]); ev; split; lra. }
  split; [done|]. split; [done|]. split; [done|]. split; [exact square_bound|]. split; [done|]. split.
  - rewrite C70_volume by done. f_equal. ev. lra.
  - destruct (limits_one flat eq_refl) as (xs & ys & zmin & zmax & E & [M1 H1] & [M2 H2]).
    assert (zmin <= 0) as Hlo by (apply H1; unfold flat; left). assert (1 <= zmax) as Hhi by (apply H2; unfold flat; do 4 right; left).
    assert (zmin = 0) as -> by (unfold flat in M1; repeat (apply elem_of_cons in M1 as [->|M1]; [lra|]); by apply elem_of_nil in M1).
    assert (zmax = 1) as -> by (unfold flat in M2; repeat (apply elem_of_cons in M2 as [->|M2]; [lra|]); by apply elem_of_nil in M2).
    destruct (C70_dips 100 (one_cell flat true) 0 0 0 0 0 xs ys 0 1 Hb Hs E HT) as [_ H];
      [ev; lra
      |ev; lra|].
    apply H. clear H. rewrite free_x_edges. ev.
    intros [[[F _]|[[F _]|[[F _]|[F _]]]] _]; lra.
Qed.
Print Assumptions C70_flat_refuted.

(** Without SPECGRID the constructor takes the size from DIMENS, and volumes are
    found, but no dips: the limits insist on SPECGRID. *)
Theorem C70_dimens_refuted : ∃ M g, sizes_ok g ∧ in_box g 0 0 0 ∧ cell_volume g 0 0 0 = Some 10 ∧ cell_dips M g 0 0 0 = None ∧
  cell_dips M (Inspector (gi_nx g) (gi_ny g) (gi_nz g) (gi_coord g) (gi_zcorn g) true) 0 0 0 = Some (1, 2).
Proof.
  exists 100, (one_cell steep false). destruct (one_cell_ok steep false eq_refl) as [Hs Hb]. split; [done|]. split; [done|]. split; [|split].
  - rewrite C70_volume by done. f_equal. ev. lra.
  - unfold cell_dips. rewrite (decide_True (P := in_box _ 0 0 0)) by done. rewrite (decide_True (P := sizes_ok _)) by done. rewrite (C70_corners _ 0 0 0 Hb Hs). reflexivity.
  - exact dips_case.
Qed.
Print Assumptions C70_dimens_refuted.

Example column_case : rsum (λ k, default 0 (cell_volume layers 0 0 k)) (seq 0 2) = 3.
Proof.
  change (seq 0 2) with (seq 0 (gi_nz layers)). rewrite (C70_column layers 0 0).
  - ev. lra.
  - cbn; lia.
  - cbn; lia.
  - cbn; lia.
  - done.
  - intros k a b Hk Ha Hb. cbn in Hk. assert (k = 0)%nat as -> by lia. destruct a as [|[|a]]; [| |lia]; (destruct b as [|[|b]]; [| |lia]); reflexivity.
Qed.
