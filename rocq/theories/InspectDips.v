(** Dips of cells of corner-point grids (C70). *)
From Coq Require Import Reals Lra Psatz.
From Verif Require Import Base LoopModel LoopProof TableModel UTableProof TofSpec TofProof MiscSpec InspectModel InspectSpec InspectProps.
Local Open Scope R_scope.
Unset Default Proof Using.

(** A cell between two parallel planes: the dips are the slopes of the planes, if it
    has an edge in each direction that counts, and 0/0 otherwise. *)
Theorem C70_dips (M : R) (g : inspector) (i j k : nat) (A B : R) (xs ys : R * R) (zmin zmax : R) : in_box g i j k → sizes_ok g →
  grid_limits M g = Some (xs, ys, (zmin, zmax)) → tilted g i j k A B →
  pillar_x g (i + 1) j ≠ pillar_x g i j → pillar_y g i (j + 1) ≠ pillar_y g i j →
  (free_x g zmin zmax i j k ∧ free_y g zmin zmax i j k → cell_dips M g i j k = Some (A, B)) ∧
  (¬ (free_x g zmin zmax i j k ∧ free_y g zmin zmax i j k) → cell_dips M g i j k = None).
Proof.
  intros Hb Hs EL (h0 & h1 & HT) Hx Hy. pose proof Hb as (Hi & Hj & Hk).
  set (lx := pillar_x g (i + 1) j - pillar_x g i j) in *. set (ly := pillar_y g i (j + 1) - pillar_y g i j) in *.
  assert (cell_dips M g i j k =
    xr ← mapM (λ e : R * (R * R), rise lx (fst e) (fst (snd e)) (snd (snd e))) [(zmin, (corner_z g i j k 0 0 0, corner_z g i j k 1 0 0)); (zmin, (corner_z g i j k 0 1 0, corner_z g i j k 1 1 0)); (zmax, (corner_z g i j k 0 0 1, corner_z g i j k 1 0 1)); (zmax, (corner_z g i j k 0 1 1, corner_z g i j k 1 1 1))];
    yr ← mapM (λ e : R * (R * R), rise ly (fst e) (fst (snd e)) (snd (snd e))) [(zmin, (corner_z g i j k 0 0 0, corner_z g i j k 0 1 0)); (zmin, (corner_z g i j k 1 0 0, corner_z g i j k 1 1 0)); (zmax, (corner_z g i j k 0 0 1, corner_z g i j k 0 1 1)); (zmax, (corner_z g i j k 1 0 1, corner_z g i j k 1 1 1))];
    dx ← mean_rise xr; dy ← mean_rise yr; Some (dx, dy)) as ->.
  { unfold cell_dips. rewrite (decide_True (P := in_box g i j k)) by done. rewrite (decide_True (P := sizes_ok g)) by done. rewrite (C70_corners g i j k Hb Hs). cbn [mbind option_bind].
    pose proof (pillar_at g (i + 1) j 0 (i + j * (gi_nx g + 1) + 1) ltac:(lia) ltac:(lia) Hs ltac:(lia) ltac:(lia)) as P1. rewrite !Nat.add_0_r in P1. rewrite P1.
    pose proof (pillar_at g i j 0 (i + j * (gi_nx g + 1)) ltac:(lia) ltac:(lia) Hs ltac:(lia) ltac:(lia)) as P2. rewrite !Nat.add_0_r in P2. cbn [mbind option_bind]. rewrite P2. cbn [mbind option_bind].
    rewrite (pillar_at g i (j + 1) 1 (i + j * (gi_nx g + 1) + (gi_nx g + 1)) ltac:(lia) ltac:(lia) Hs ltac:(lia) ltac:(lia)). cbn [mbind option_bind].
    rewrite (pillar_at g i j 1 (i + j * (gi_nx g + 1)) ltac:(lia) ltac:(lia) Hs ltac:(lia) ltac:(lia)). cbn [mbind option_bind]. rewrite EL. reflexivity. }
  pose proof (HT 0 0 ltac:(lia) ltac:(lia))%nat as [T000 T001]. pose proof (HT 1 0 ltac:(lia) ltac:(lia))%nat as [T100 T101].
  pose proof (HT 0 1 ltac:(lia) ltac:(lia))%nat as [T010 T011]. pose proof (HT 1 1 ltac:(lia) ltac:(lia))%nat as [T110 T111]. cbn [INR] in *.
  destruct (edges_mean lx A zmin zmin zmax zmax (corner_z g i j k 0 0 0) (corner_z g i j k 0 1 0) (corner_z g i j k 0 0 1) (corner_z g i j k 0 1 1) (corner_z g i j k 1 0 0) (corner_z g i j k 1 1 0) (corner_z g i j k 1 0 1) (corner_z g i j k 1 1 1)) as (xr & -> & HX);
    [unfold lx; lra|rewrite T000, T100; ring|rewrite T010, T110; ring|rewrite T001, T101; ring|rewrite T011, T111; ring|].
  destruct (edges_mean ly B zmin zmin zmax zmax (corner_z g i j k 0 0 0) (corner_z g i j k 1 0 0) (corner_z g i j k 0 0 1) (corner_z g i j k 1 0 1) (corner_z g i j k 0 1 0) (corner_z g i j k 1 1 0) (corner_z g i j k 0 1 1) (corner_z g i j k 1 1 1)) as (yr & -> & HY);
    [unfold ly; lra|rewrite T000, T010; ring|rewrite T100, T110; ring|rewrite T001, T011; ring|rewrite T101, T111; ring|].
  clear T000 T001 T100 T101 T010 T011 T110 T111 HT. cbn [mbind option_bind]. cbv zeta in HX, HY. rewrite <- free_x_edges in HX. rewrite <- free_y_edges in HY.
  destruct HX as [[Fx ->]|[Fx ->]]; cbn [mbind option_bind]; [|split; [intros [? _]; by destruct Fx|done]].
  destruct HY as [[Fy ->]|[Fy ->]]; cbn [mbind option_bind]; [|split; [intros [_ ?]; by destruct Fy|done]].
  split; [done|]. intros HF. destruct HF. by split.
Qed.
Print Assumptions C70_dips.
