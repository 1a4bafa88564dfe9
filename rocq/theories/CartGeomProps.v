(** C19: geometry of Cartesian grids, read together with the topology the same
    constructor produces (create_grid_tensor3d, create_grid_tensor2d, and with
    equal spacing create_grid_hexa3d and create_grid_cart2d). *)
From Coq Require Import Reals Lra.
From Verif Require Import Base LoopModel LoopProof CartModel CartSpec CartProof Cart2Proof CartProps GridModel GridSpec CartGeomProof.
Local Open Scope R_scope.

Section three.
Variables (nx ny nz : nat) (x y z : list R).
Hypotheses (Hx : (0 < nx)%nat) (Hy : (0 < ny)%nat) (Hz : (0 < nz)%nat).
Hypotheses (Lx : length x = (nx + 1)%nat) (Ly : length y = (ny + 1)%nat) (Lz : length z = (nz + 1)%nat).
Variables (m : topo) (gm : geom).
Hypotheses (Hm : sized3 nx ny nz m) (Hgm : gsized3 nx ny nz gm).

(** Volumes, cell centroids and node positions by coordinates; the volumes add
    up to the bounding box.  The coordinates need not be increasing. *)
Theorem C19_values3 : ∃ g, geometry3 nx ny nz x y z gm = Some g ∧ gsized3 nx ny nz g ∧
  (∀ i j k x0 x1 y0 y1 z0 z1, x !! i = Some x0 → x !! S i = Some x1 → y !! j = Some y0 → y !! S j = Some y1 →
     z !! k = Some z0 → z !! S k = Some z1 →
     g_cv g !! cell_no nx ny i j k = Some ((x1 - x0) * (y1 - y0) * (z1 - z0)) ∧
     at3 (g_cc g) (cell_no nx ny i j k) ((x0 + x1) / 2, (y0 + y1) / 2, (z0 + z1) / 2)) ∧
  (∀ i j k x0 y0 z0, x !! i = Some x0 → y !! j = Some y0 → z !! k = Some z0 →
     at3 (g_nodes g) (node_no nx ny i j k) (x0, y0, z0)) ∧
  (∀ xa xb ya yb za zb, x !! 0%nat = Some xa → last x = Some xb → y !! 0%nat = Some ya → last y = Some yb →
     z !! 0%nat = Some za → last z = Some zb →
     foldr Rplus 0 (g_cv g) = (xb - xa) * (yb - ya) * (zb - za)).
Proof using Lx Ly Lz Hgm.
  clear Hx Hy Hz Hm m.
  exists (the_geom nx ny nz x y z). split; [by apply geometry3_ok|]. split; [apply the_geom_sized|]. split_and!.
  - intros i j k x0 x1 y0 y1 z0 z1 E1 E2 E3 E4 E5 E6.
    pose proof (lookup_lt_Some _ _ _ E2). pose proof (lookup_lt_Some _ _ _ E4). pose proof (lookup_lt_Some _ _ _ E6).
    assert (Hat : cell_at nx ny nz i j k) by (unfold cell_at; lia).
    pose proof (geom_cv nx ny nz x y z _ _ _ Hat) as V. pose proof (geom_cc nx ny nz x y z _ _ _ Hat) as C.
    unfold gap in V. unfold mid in C. unfold co in V, C. rewrite !Nat.add_1_r in V. rewrite !Nat.add_1_r in C.
    rewrite E1, E2, E3, E4, E5, E6 in V. rewrite E1, E2, E3, E4, E5, E6 in C. done.
  - intros i j k x0 y0 z0 E1 E2 E3.
    pose proof (lookup_lt_Some _ _ _ E1). pose proof (lookup_lt_Some _ _ _ E2). pose proof (lookup_lt_Some _ _ _ E3).
    assert (Hat : node_at nx ny nz i j k) by (unfold node_at; lia).
    pose proof (geom_node nx ny nz x y z _ _ _ Hat) as C. unfold co in C. rewrite E1, E2, E3 in C. done.
  - intros xa xb ya yb za zb E1 E2 E3 E4 E5 E6. rewrite last_lookup, Lx in E2. rewrite last_lookup, Ly in E4. rewrite last_lookup, Lz in E6.
    replace (Nat.pred (nx + 1)) with nx in E2 by lia. replace (Nat.pred (ny + 1)) with ny in E4 by lia. replace (Nat.pred (nz + 1)) with nz in E6 by lia.
    cbn [the_geom g_cv]. pose proof (volume3 nx ny nz x y z) as V. unfold lsum, co in V. rewrite E1, E2, E3, E4, E5, E6 in V. done.
Qed.

Hypotheses (Ix : increasing x) (Iy : increasing y) (Iz : increasing z).
Lemma gap_pos_x i : (i < nx)%nat → 0 < gap x i.
Proof. intros H. unfold gap. pose proof (co_inc x i Ix ltac:(lia)). lra. Qed.
Lemma gap_pos_y i : (i < ny)%nat → 0 < gap y i.
Proof. intros H. unfold gap. pose proof (co_inc y i Iy ltac:(lia)). lra. Qed.
Lemma gap_pos_z i : (i < nz)%nat → 0 < gap z i.
Proof. intros H. unfold gap. pose proof (co_inc z i Iz ltac:(lia)). lra. Qed.

(** Each face: the area is the length of the normal, the normal is the vector
    area of the polygon of the stored nodes, the centroid is their mean, and the
    normal points out of the first and into the second neighbour. *)
Theorem C19_faces3 : ∃ t g, topology3 nx ny nz m = Some t ∧ geometry3 nx ny nz x y z gm = Some g ∧
  let u := ugrid_of (ncells3 nx ny nz) (nfaces3 nx ny nz) t in
  (∀ v, v ∈ g_cv g → 0 < v) ∧
  ∀ f a b, face_between u f a b → ∃ n c area n0 n1 n2 n3 p0 p1 p2 p3,
    at3 (g_fn g) f n ∧ at3 (g_fc g) f c ∧ g_fa g !! f = Some area ∧
    0 < area ∧ area * area = vdot n n ∧
    slice (t_fn t) (4 * f) 4 = Some [n0; n1; n2; n3] ∧
    at3 (g_nodes g) n0 p0 ∧ at3 (g_nodes g) n1 p1 ∧ at3 (g_nodes g) n2 p2 ∧ at3 (g_nodes g) n3 p3 ∧
    n = vscale (1/2) (vcross (vsub p2 p0) (vsub p3 p1)) ∧
    c = vscale (1/4) (vadd (vadd p0 p1) (vadd p2 p3)) ∧
    (a ≠ (-1)%Z → ∃ ca, at3 (g_cc g) (Z.to_nat a) ca ∧ 0 < vdot n (vsub c ca)) ∧
    (b ≠ (-1)%Z → ∃ cb, at3 (g_cc g) (Z.to_nat b) cb ∧ 0 < vdot n (vsub cb c)).
Proof using Hx Hy Hz Lx Ly Lz Hm Hgm Ix Iy Iz.
  exists (the_topo nx ny nz), (the_geom nx ny nz x y z).
  split; [by apply topology3_ok|]. split; [by apply geometry3_ok|]. intros u. split.
  { intros v Hv. apply elem_of_list_lookup in Hv as [c Hc]. pose proof (lookup_lt_Some _ _ _ Hc) as Hlt.
    destruct (the_geom_sized nx ny nz x y z) as (_ & Hl & _). rewrite Hl in Hlt.
    destruct (cell_surj nx ny nz c Hlt) as (i & j & k & Hat & ->). rewrite geom_cv in Hc by done. injection Hc as <-.
    destruct Hat as (Hi & Hj & Hk). pose proof (gap_pos_x i Hi). pose proof (gap_pos_y j Hj). pose proof (gap_pos_z k Hk).
    apply Rmult_lt_0_compat; [by apply Rmult_lt_0_compat|done]. }
  intros f a b Hab.
  assert (Hf : (f < nfaces3 nx ny nz)%nat).
  { destruct Hab as [_ H]. apply lookup_lt_Some in H. cbn in H. rewrite all_fcells_length in H. lia. }
  destruct (face_surj nx ny nz f Hf) as (d & i & j & k & Hat & ->). pose proof (between nx ny nz Hx Hy Hz _ _ _ _ Hat) as Hb.
  destruct Hab as [A1 A2], Hb as [B1 B2]. unfold u in A1, A2. rewrite A1 in B1. rewrite A2 in B2. injection B1 as ->. injection B2 as ->.
  pose proof (geom_fn nx ny nz x y z _ _ _ _ Hat) as G1. pose proof (geom_fc nx ny nz x y z _ _ _ _ Hat) as G2.
  pose proof (geom_fa nx ny nz x y z _ _ _ _ Hat) as G3. pose proof (nodes_slice nx ny nz _ _ _ _ Hat) as G4.
  assert (PA : 0 < sfa x y z d i j k).
  { destruct Hat as (Hi & Hj & Hk). destruct d; simpl at_dir in *; simpl; apply Rmult_lt_0_compat;
      (apply gap_pos_x || apply gap_pos_y || apply gap_pos_z); lia. }
  assert (AB : (below nx ny d i j k ≠ (-1)%Z → ∃ ca, at3 (g_cc (the_geom nx ny nz x y z)) (Z.to_nat (below nx ny d i j k)) ca ∧
             0 < vdot (vfn x y z d i j k) (vsub (vfc x y z d i j k) ca)) ∧
    (above nx ny nz i j k ≠ (-1)%Z → ∃ cb, at3 (g_cc (the_geom nx ny nz x y z)) (Z.to_nat (above nx ny nz i j k)) cb ∧
             0 < vdot (vfn x y z d i j k) (vsub cb (vfc x y z d i j k)))).
  { split; intros Hne.
    - destruct (below_cell nx ny nz _ _ _ _ Hat) as [E1|(i' & j' & k' & Hat' & E1 & Hc)]; [lia|].
      rewrite E1, Nat2Z.id. eexists. split; [by apply geom_cc|]. destruct Hat' as (Hi & Hj & Hk).
      pose proof (gap_pos_x i' Hi) as P1. pose proof (gap_pos_y j' Hj) as P2. pose proof (gap_pos_z k' Hk) as P3.
      unfold mid, vfc, vfn in *. destruct d; simpl at_dir in *; cbn [sfa] in PA.
      + assert (i = (i' + 1)%nat ∧ j = j' ∧ k = k') as (-> & -> & ->) by lia.
        unfold vdot, vsub, vadd, vscale; cbn [fst snd].
        match goal with |- 0 < ?e => replace e with (gap y j' * gap z k' * (gap x i' / 2)) by (unfold gap; field) end.
        apply Rmult_lt_0_compat; [done|lra].
      + assert (i = i' ∧ j = (j' + 1)%nat ∧ k = k') as (-> & -> & ->) by lia.
        unfold vdot, vsub, vadd, vscale; cbn [fst snd].
        match goal with |- 0 < ?e => replace e with (gap x i' * gap z k' * (gap y j' / 2)) by (unfold gap; field) end.
        apply Rmult_lt_0_compat; [done|lra].
      + assert (i = i' ∧ j = j' ∧ k = (k' + 1)%nat) as (-> & -> & ->) by lia.
        unfold vdot, vsub, vadd, vscale; cbn [fst snd].
        match goal with |- 0 < ?e => replace e with (gap x i' * gap y j' * (gap z k' / 2)) by (unfold gap; field) end.
        apply Rmult_lt_0_compat; [done|lra].
    - destruct (above_cell nx ny nz i j k) as [E1|[Hat' E1]]; [lia|].
      rewrite E1, Nat2Z.id. eexists. split; [by apply geom_cc|]. destruct Hat' as (Hi & Hj & Hk).
      pose proof (gap_pos_x i Hi) as P1. pose proof (gap_pos_y j Hj) as P2. pose proof (gap_pos_z k Hk) as P3.
      unfold mid, vfc, vfn in *. destruct d; simpl at_dir in *; cbn [sfa] in PA; unfold vdot, vsub, vadd, vscale; cbn [fst snd].
      + match goal with |- 0 < ?e => replace e with (gap y j * gap z k * (gap x i / 2)) by (unfold gap; field) end.
        apply Rmult_lt_0_compat; [done|lra].
      + match goal with |- 0 < ?e => replace e with (gap x i * gap z k * (gap y j / 2)) by (unfold gap; field) end.
        apply Rmult_lt_0_compat; [done|lra].
      + match goal with |- 0 < ?e => replace e with (gap x i * gap y j * (gap z k / 2)) by (unfold gap; field) end.
        apply Rmult_lt_0_compat; [done|lra]. }
  destruct AB as [AB1 AB2].
  exists (vfn x y z d i j k), (vfc x y z d i j k), (sfa x y z d i j k).
  destruct Hat as (Hi & Hj & Hk).
  destruct d; simpl at_dir in *; cbn [corners] in G4.
  all: do 4 eexists.
  all: match type of G4 with _ = Some [node_no _ _ ?i0 ?j0 ?k0; node_no _ _ ?i1 ?j1 ?k1; node_no _ _ ?i2 ?j2 ?k2; node_no _ _ ?i3 ?j3 ?k3] =>
    exists (co x i0, co y j0, co z k0), (co x i1, co y j1, co z k1), (co x i2, co y j2, co z k2), (co x i3, co y j3, co z k3) end.
  all: split; [exact G1|]; split; [exact G2|]; split; [exact G3|]; split; [exact PA|]; split; [unfold vdot; simpl; ring|];
    split; [exact G4|]; do 4 (split; [apply geom_node; unfold node_at; lia|]); split; [|split; [|split; assumption]].
  all: unfold vfn, vfc, mid, gap, vscale, vcross, vsub, vadd, vscale; cbn [fst snd].
  all: f_equal; [f_equal|]; field.
Qed.

(** Each cell: the normals of its faces, taken outwards, sum to zero, and the
    volume is a third of the sum of their products with the face centroids (the
    divergence theorem for the position vector). *)
Theorem C19_cells3 : ∃ t g cf, topology3 nx ny nz m = Some t ∧ geometry3 nx ny nz x y z gm = Some g ∧
  let u := ugrid_of (ncells3 nx ny nz) (nfaces3 nx ny nz) t in
  grid_ok u cf ∧
  ∀ cell row, cf !! cell = Some row → ∃ (outs cents : list vec) v,
    Forall2 (λ f o, ∃ n a b, at3 (g_fn g) f n ∧ face_between u f a b ∧
               (a = Z.of_nat cell ∧ o = n ∨ b = Z.of_nat cell ∧ o = vscale (-1) n)) row outs ∧
    Forall2 (at3 (g_fc g)) row cents ∧
    vsum outs = (0, 0, 0) ∧
    g_cv g !! cell = Some v ∧ 3 * v = foldr Rplus 0 (zip_with vdot outs cents).
Proof using Hx Hy Hz Lx Ly Lz Hm Hgm.
  clear Ix Iy Iz.
  exists (the_topo nx ny nz), (the_geom nx ny nz x y z), (rows3 nx ny nz).
  split; [by apply topology3_ok|]. split; [by apply geometry3_ok|]. intros u. split; [by apply cart3_ok|].
  intros c row Hrow. apply rows3_inv in Hrow as (i & j & k & Hat & -> & ->).
  assert (FX : ∀ i', i' = i ∨ i' = (i + 1)%nat → face_at nx ny nz DX i' j k).
  { intros i' Hi'. destruct Hat as (Hi & Hj & Hk). unfold face_at. simpl. lia. }
  assert (FY : ∀ j', j' = j ∨ j' = (j + 1)%nat → face_at nx ny nz DY i j' k).
  { intros i' Hi'. destruct Hat as (Hi & Hj & Hk). unfold face_at. simpl. lia. }
  assert (FZ : ∀ k', k' = k ∨ k' = (k + 1)%nat → face_at nx ny nz DZ i j k').
  { intros i' Hi'. destruct Hat as (Hi & Hj & Hk). unfold face_at. simpl. lia. }
  exists [vscale (-1) (vfn x y z DX i j k); vfn x y z DX (i+1) j k; vscale (-1) (vfn x y z DY i j k); vfn x y z DY i (j+1) k;
          vscale (-1) (vfn x y z DZ i j k); vfn x y z DZ i j (k+1)].
  exists [vfc x y z DX i j k; vfc x y z DX (i+1) j k; vfc x y z DY i j k; vfc x y z DY i (j+1) k; vfc x y z DZ i j k; vfc x y z DZ i j (k+1)].
  exists (gap x i * gap y j * gap z k). split_and!.
  - assert (IN : ∀ d, face_at nx ny nz d i j k →
      ∃ n a b, at3 (g_fn (the_geom nx ny nz x y z)) (face_no nx ny nz d i j k) n ∧ face_between u (face_no nx ny nz d i j k) a b ∧
               (a = Z.of_nat (cell_no nx ny i j k) ∧ vscale (-1) (vfn x y z d i j k) = n ∨
                b = Z.of_nat (cell_no nx ny i j k) ∧ vscale (-1) (vfn x y z d i j k) = vscale (-1) n)).
    { intros d Hd. exists (vfn x y z d i j k), (below nx ny d i j k), (above nx ny nz i j k). split; [by apply geom_fn|]. split; [by apply between|].
      right. split; [|done]. unfold above. by rewrite decide_True. }
    assert (OUT : ∀ d i' j' k', face_at nx ny nz d i' j' k' → below nx ny d i' j' k' = Z.of_nat (cell_no nx ny i j k) →
      ∃ n a b, at3 (g_fn (the_geom nx ny nz x y z)) (face_no nx ny nz d i' j' k') n ∧ face_between u (face_no nx ny nz d i' j' k') a b ∧
               (a = Z.of_nat (cell_no nx ny i j k) ∧ vfn x y z d i' j' k' = n ∨
                b = Z.of_nat (cell_no nx ny i j k) ∧ vfn x y z d i' j' k' = vscale (-1) n)).
    { intros d i' j' k' Hd Hb. exists (vfn x y z d i' j' k'), (below nx ny d i' j' k'), (above nx ny nz i' j' k').
      split; [by apply geom_fn|]. split; [by apply between|]. left. done. }
    unfold faces_of. repeat constructor; (apply IN; auto) || (apply OUT; [auto|]); cbn [below]; rewrite Nat.add_1_r; done.
  - unfold faces_of. repeat constructor; apply geom_fc; auto.
  - unfold vsum, vadd, vscale, vfn. cbn [foldr fst snd]. f_equal; [f_equal|]; ring.
  - by apply geom_cv.
  - unfold vdot, vscale, vfn, vfc, mid, gap. cbn [zip_with foldr fst snd]. field.
Qed.
End three.
Print Assumptions C19_values3.
Print Assumptions C19_faces3.
Print Assumptions C19_cells3.

Section two.
Variables (nx ny : nat) (x y : list R).
Hypotheses (Hx : (0 < nx)%nat) (Hy : (0 < ny)%nat).
Hypotheses (Lx : length x = (nx + 1)%nat) (Ly : length y = (ny + 1)%nat).
Variables (m : topo) (gm : geom).
Hypotheses (Hm : sized2 nx ny m) (Hgm : gsized2 nx ny gm).
Theorem C19_values2 : ∃ g, geometry2 nx ny x y gm = Some g ∧ gsized2 nx ny g ∧
  (∀ i j x0 x1 y0 y1, x !! i = Some x0 → x !! S i = Some x1 → y !! j = Some y0 → y !! S j = Some y1 →
     g_cv g !! cell2_no nx i j = Some ((x1 - x0) * (y1 - y0)) ∧
     at2 (g_cc g) (cell2_no nx i j) ((x0 + x1) / 2, (y0 + y1) / 2)) ∧
  (∀ i j x0 y0, x !! i = Some x0 → y !! j = Some y0 → at2 (g_nodes g) (node2_no nx i j) (x0, y0)) ∧
  (∀ xa xb ya yb, x !! 0%nat = Some xa → last x = Some xb → y !! 0%nat = Some ya → last y = Some yb →
     foldr Rplus 0 (g_cv g) = (xb - xa) * (yb - ya)).
Proof using Lx Ly Hgm.
  clear Hx Hy Hm m.
  exists (the_geom2 nx ny x y). split; [by apply geometry2_ok|]. split; [apply the_geom2_sized|]. split_and!.
  - intros i j x0 x1 y0 y1 E1 E2 E3 E4.
    pose proof (lookup_lt_Some _ _ _ E2). pose proof (lookup_lt_Some _ _ _ E4).
    assert (Hat : cell2_at nx ny i j) by (unfold cell2_at; lia).
    pose proof (geom2_cv nx ny x y _ _ Hat) as V. pose proof (geom2_cc nx ny x y _ _ Hat) as C.
    unfold gap in V. unfold mid in C. unfold co in V, C. rewrite !Nat.add_1_r in V. rewrite !Nat.add_1_r in C.
    rewrite E1, E2, E3, E4 in V. rewrite E1, E2, E3, E4 in C. done.
  - intros i j x0 y0 E1 E2. pose proof (lookup_lt_Some _ _ _ E1). pose proof (lookup_lt_Some _ _ _ E2).
    assert (Hat : node2_at nx ny i j) by (unfold node2_at; lia).
    pose proof (geom2_node nx ny x y _ _ Hat) as C. unfold co in C. rewrite E1, E2 in C. done.
  - intros xa xb ya yb E1 E2 E3 E4. rewrite last_lookup, Lx in E2. rewrite last_lookup, Ly in E4.
    replace (Nat.pred (nx + 1)) with nx in E2 by lia. replace (Nat.pred (ny + 1)) with ny in E4 by lia.
    cbn [the_geom2 g_cv]. pose proof (volume2 nx ny x y) as V. unfold lsum, co in V. rewrite E1, E2, E3, E4 in V. done.
Qed.
Hypotheses (Ix : increasing x) (Iy : increasing y).
Lemma gap2_pos_x i : (i < nx)%nat → 0 < gap x i.
Proof. intros H. unfold gap. pose proof (co_inc x i Ix ltac:(lia)). lra. Qed.
Lemma gap2_pos_y i : (i < ny)%nat → 0 < gap y i.
Proof. intros H. unfold gap. pose proof (co_inc y i Iy ltac:(lia)). lra. Qed.
Theorem C19_faces2 : ∃ t g, topology2 nx ny m = Some t ∧ geometry2 nx ny x y gm = Some g ∧
  let u := ugrid_of (ncells2 nx ny) (nfaces2 nx ny) t in
  (∀ v, v ∈ g_cv g → 0 < v) ∧
  ∀ f a b, face_between u f a b → ∃ n c area n0 n1 p0 p1,
    at2 (g_fn g) f n ∧ at2 (g_fc g) f c ∧ g_fa g !! f = Some area ∧
    0 < area ∧ area * area = vdot2 n n ∧
    slice (t_fn t) (2 * f) 2 = Some [n0; n1] ∧ at2 (g_nodes g) n0 p0 ∧ at2 (g_nodes g) n1 p1 ∧
    n = vright (vsub2 p1 p0) ∧
    c = ((p0.1 + p1.1) / 2, (p0.2 + p1.2) / 2) ∧
    (a ≠ (-1)%Z → ∃ ca, at2 (g_cc g) (Z.to_nat a) ca ∧ 0 < vdot2 n (vsub2 c ca)) ∧
    (b ≠ (-1)%Z → ∃ cb, at2 (g_cc g) (Z.to_nat b) cb ∧ 0 < vdot2 n (vsub2 cb c)).
Proof using Hx Hy Lx Ly Hm Hgm Ix Iy.
  exists (the_topo2 nx ny), (the_geom2 nx ny x y).
  split; [by apply topology2_ok|]. split; [by apply geometry2_ok|]. intros u. split.
  { intros v Hv. apply elem_of_list_lookup in Hv as [c Hc]. pose proof (lookup_lt_Some _ _ _ Hc) as Hlt.
    destruct (the_geom2_sized nx ny x y) as (_ & Hl & _). rewrite Hl in Hlt.
    destruct (cell2_surj nx ny c Hlt) as (i & j & Hat & ->). rewrite geom2_cv in Hc by done. injection Hc as <-.
    destruct Hat as (Hi & Hj). pose proof (gap2_pos_x i Hi). pose proof (gap2_pos_y j Hj).
    by apply Rmult_lt_0_compat. }
  intros f a b Hab.
  assert (Hf : (f < nfaces2 nx ny)%nat).
  { destruct Hab as [_ H]. apply lookup_lt_Some in H. cbn in H. rewrite fcells2_length in H. lia. }
  destruct (face2_surj nx ny f Hf) as (d & i & j & Hat & ->). pose proof (between2 nx ny Hx Hy _ _ _ Hat) as Hb.
  destruct Hab as [A1 A2], Hb as [B1 B2]. unfold u in A1, A2. rewrite A1 in B1. rewrite A2 in B2. injection B1 as ->. injection B2 as ->.
  pose proof (geom2_fn nx ny x y _ _ _ Hat) as G1. pose proof (geom2_fc nx ny x y _ _ _ Hat) as G2.
  pose proof (geom2_fa nx ny x y _ _ _ Hat) as G3. pose proof (nodes2_slice nx ny _ _ _ Hat) as G4.
  assert (PA : 0 < sfa2 x y d i j).
  { destruct d; destruct Hat as (Hi & Hj); simpl; (apply gap2_pos_x || apply gap2_pos_y); lia. }
  assert (AB : (below2 nx d i j ≠ (-1)%Z → ∃ ca, at2 (g_cc (the_geom2 nx ny x y)) (Z.to_nat (below2 nx d i j)) ca ∧
             0 < vdot2 (vfn2 x y d i j) (vsub2 (vfc2 x y d i j) ca)) ∧
    (above2 nx ny i j ≠ (-1)%Z → ∃ cb, at2 (g_cc (the_geom2 nx ny x y)) (Z.to_nat (above2 nx ny i j)) cb ∧
             0 < vdot2 (vfn2 x y d i j) (vsub2 cb (vfc2 x y d i j)))).
  { split; intros Hne.
    - destruct (below2_cell nx ny _ _ _ Hat) as [E1|(i' & j' & Hat' & E1 & Hc)]; [lia|].
      rewrite E1, Nat2Z.id. eexists. split; [by apply geom2_cc|]. destruct Hat' as (Hi & Hj).
      pose proof (gap2_pos_x i' Hi) as P1. pose proof (gap2_pos_y j' Hj) as P2.
      unfold mid, vfc2, vfn2 in *. destruct d; cbn [sfa2] in PA; destruct Hc as (-> & ->); unfold vdot2, vsub2; cbn [fst snd].
      + match goal with |- 0 < ?e => replace e with (gap x i' * (gap y j' / 2)) by (unfold gap; field) end.
        apply Rmult_lt_0_compat; [done|lra].
      + match goal with |- 0 < ?e => replace e with (gap y j' * (gap x i' / 2)) by (unfold gap; field) end.
        apply Rmult_lt_0_compat; [done|lra].
    - destruct (above2_cell nx ny i j) as [E1|[Hat' E1]]; [lia|].
      rewrite E1, Nat2Z.id. eexists. split; [by apply geom2_cc|]. destruct Hat' as (Hi & Hj).
      pose proof (gap2_pos_x i Hi) as P1. pose proof (gap2_pos_y j Hj) as P2.
      unfold mid, vfc2, vfn2 in *. destruct d; cbn [sfa2] in PA; unfold vdot2, vsub2; cbn [fst snd].
      + match goal with |- 0 < ?e => replace e with (gap x i * (gap y j / 2)) by (unfold gap; field) end.
        apply Rmult_lt_0_compat; [done|lra].
      + match goal with |- 0 < ?e => replace e with (gap y j * (gap x i / 2)) by (unfold gap; field) end.
        apply Rmult_lt_0_compat; [done|lra]. }
  destruct AB as [AB1 AB2].
  exists (vfn2 x y d i j), (vfc2 x y d i j), (sfa2 x y d i j).
  destruct d; destruct Hat as (Hi & Hj); cbn [ends2] in G4.
  all: do 2 eexists.
  all: match type of G4 with _ = Some [node2_no _ ?i0 ?j0; node2_no _ ?i1 ?j1] =>
    exists (co x i0, co y j0), (co x i1, co y j1) end.
  all: split; [exact G1|]; split; [exact G2|]; split; [exact G3|]; split; [exact PA|]; split; [unfold vdot2; simpl; ring|];
    split; [exact G4|]; do 2 (split; [apply geom2_node; unfold node2_at; lia|]); split; [|split; [|split; assumption]].
  all: unfold vfn2, vfc2, mid, gap, vright, vsub2; cbn [fst snd].
  all: f_equal; field.
Qed.
Theorem C19_cells2 : ∃ t g cf, topology2 nx ny m = Some t ∧ geometry2 nx ny x y gm = Some g ∧
  let u := ugrid_of (ncells2 nx ny) (nfaces2 nx ny) t in
  grid_ok u cf ∧
  ∀ cell row, cf !! cell = Some row → ∃ (outs cents : list vec2) v,
    Forall2 (λ f o, ∃ n a b, at2 (g_fn g) f n ∧ face_between u f a b ∧
               (a = Z.of_nat cell ∧ o = n ∨ b = Z.of_nat cell ∧ o = (- n.1, - n.2))) row outs ∧
    Forall2 (at2 (g_fc g)) row cents ∧
    foldr Rplus 0 (map fst outs) = 0 ∧ foldr Rplus 0 (map snd outs) = 0 ∧
    g_cv g !! cell = Some v ∧ 2 * v = foldr Rplus 0 (zip_with vdot2 outs cents).
Proof using Hx Hy Lx Ly Hm Hgm.
  clear Ix Iy.
  exists (the_topo2 nx ny), (the_geom2 nx ny x y), (rows2 nx ny).
  split; [by apply topology2_ok|]. split; [by apply geometry2_ok|]. intros u. split; [by apply cart2_ok|].
  intros c row Hrow. apply rows2_inv in Hrow as (i & j & Hat & -> & ->).
  assert (FX : ∀ i', i' = i ∨ i' = (i + 1)%nat → face2_at nx ny false i' j).
  { intros i' Hi'. destruct Hat as (Hi & Hj). unfold face2_at. lia. }
  assert (FY : ∀ j', j' = j ∨ j' = (j + 1)%nat → face2_at nx ny true i j').
  { intros i' Hi'. destruct Hat as (Hi & Hj). unfold face2_at. lia. }
  set (neg := λ v : vec2, (- v.1, - v.2)).
  exists [neg (vfn2 x y false i j); neg (vfn2 x y true i j); vfn2 x y false (i+1) j; vfn2 x y true i (j+1)].
  exists [vfc2 x y false i j; vfc2 x y true i j; vfc2 x y false (i+1) j; vfc2 x y true i (j+1)].
  exists (gap x i * gap y j). split_and!.
  - assert (IN : ∀ d, face2_at nx ny d i j →
      ∃ n a b, at2 (g_fn (the_geom2 nx ny x y)) (face2_no nx ny d i j) n ∧ face_between u (face2_no nx ny d i j) a b ∧
               (a = Z.of_nat (cell2_no nx i j) ∧ neg (vfn2 x y d i j) = n ∨
                b = Z.of_nat (cell2_no nx i j) ∧ neg (vfn2 x y d i j) = (- n.1, - n.2))).
    { intros d Hd. exists (vfn2 x y d i j), (below2 nx d i j), (above2 nx ny i j). split; [by apply geom2_fn|]. split; [by apply between2|].
      right. split; [|done]. unfold above2. by rewrite decide_True. }
    assert (OUT : ∀ d i' j', face2_at nx ny d i' j' → below2 nx d i' j' = Z.of_nat (cell2_no nx i j) →
      ∃ n a b, at2 (g_fn (the_geom2 nx ny x y)) (face2_no nx ny d i' j') n ∧ face_between u (face2_no nx ny d i' j') a b ∧
               (a = Z.of_nat (cell2_no nx i j) ∧ vfn2 x y d i' j' = n ∨
                b = Z.of_nat (cell2_no nx i j) ∧ vfn2 x y d i' j' = (- n.1, - n.2))).
    { intros d i' j' Hd Hb. exists (vfn2 x y d i' j'), (below2 nx d i' j'), (above2 nx ny i' j').
      split; [by apply geom2_fn|]. split; [by apply between2|]. left. done. }
    unfold faces2_of. repeat constructor; (apply IN; auto) || (apply OUT; [auto|]); cbn [below2]; rewrite Nat.add_1_r; done.
  - unfold faces2_of. repeat constructor; apply geom2_fc; auto.
  - unfold neg, vfn2. simpl. ring.
  - unfold neg, vfn2. simpl. ring.
  - by apply geom2_cv.
  - unfold neg, vdot2, vfn2, vfc2, mid, gap. cbn [zip_with foldr fst snd]. field.
Qed.
End two.
Print Assumptions C19_values2.
Print Assumptions C19_faces2.
Print Assumptions C19_cells2.

(** Equally spaced coordinates meet the hypotheses, and give equal cells. *)
Theorem C19_spaced n d : 0 < d → length (spaced n d) = (n + 1)%nat ∧ increasing (spaced n d) ∧
  spaced n d !! 0%nat = Some 0 ∧ last (spaced n d) = Some (INR n * d) ∧
  ∀ i a b, spaced n d !! i = Some a → spaced n d !! S i = Some b → b - a = d.
Proof.
  intros Hd.
  assert (Hl : length (spaced n d) = (n + 1)%nat) by (unfold spaced; by rewrite map_length, seq_length).
  assert (Hg : ∀ i, (i ≤ n)%nat → spaced n d !! i = Some (INR i * d)).
  { intros i Hi. unfold spaced. rewrite list_lookup_fmap. by rewrite (lookup_seq_lt 0 (n+1) i) by lia. }
  assert (Hs : ∀ i a b, spaced n d !! i = Some a → spaced n d !! S i = Some b → b - a = d).
  { intros i a b Ha Hb. pose proof (lookup_lt_Some _ _ _ Hb). rewrite Hg in Ha by lia. rewrite Hg in Hb by lia.
    rewrite S_INR in Hb. injection Ha as <-. injection Hb as <-. lra. }
  split; [done|]. split; [|split; [|split; [|done]]].
  - intros i a b Ha Hb. pose proof (Hs i a b Ha Hb). lra.
  - rewrite Hg by lia. simpl. f_equal. lra.
  - rewrite last_lookup, Hl. replace (Nat.pred (n + 1)) with n by lia. by apply Hg.
Qed.
(** Two cells of different width; the total volume is that of the box. *)
Example C19_example : ∃ g, geometry2 2 1 [0; 1; 3] [0; 2] (Geom (replicate 4 7) (replicate 2 7) (replicate 14 7) (replicate 14 7) (replicate 7 7) (replicate 12 7)) = Some g ∧
  increasing [0; 1; 3] ∧ increasing [0; 2] ∧ foldr Rplus 0 (g_cv g) = 6.
Proof.
  assert (I1 : increasing [0; 1; 3]).
  { intros i a b. destruct i as [|[|[|i]]]; simpl; intros H1 H2; simplify_eq; lra. }
  assert (I2 : increasing [0; 2]).
  { intros i a b. destruct i as [|[|i]]; simpl; intros H1 H2; simplify_eq; lra. }
  destruct (C19_values2 2 1 [0; 1; 3] [0; 2] eq_refl eq_refl
    (Geom (replicate 4 7) (replicate 2 7) (replicate 14 7) (replicate 14 7) (replicate 7 7) (replicate 12 7)) ltac:(done)) as (g & E & _ & _ & _ & V).
  exists g. split; [done|]. split_and!; [done|done|]. rewrite (V 0 3 0 2) by done. lra.
Qed.
