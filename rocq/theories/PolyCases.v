(** C58, C59: triangles, a grid of two tetrahedra, and a cell with a notch. *)
From Coq Require Import Reals Lra Psatz.
From Verif Require Import Base LoopModel LoopProof TableModel GridModel GridSpec CsrSpec CartGeomProof TofSpec AccProof TofProof TwoProps PolyModel PolySpec PolyProof PolyProps PolyCell PolyCellProps.
Local Open Scope R_scope.
Unset Default Proof Using.

Lemma mean3 a b c : mean [a; b; c] = vscale (1 / 3) (vadd a (vadd b c)).
Proof. unfold mean, vsum. cbn [length foldr]. replace (INR 3) with 3 by (cbn; lra). vring. Qed.
Lemma mean4 a b c d : mean [a; b; c; d] = vscale (1 / 4) (vadd (vadd a b) (vadd c d)).
Proof. unfold mean, vsum. cbn [length foldr]. replace (INR 4) with 4 by (cbn; lra). vring. Qed.
Lemma area3 a b c : area_vector [a; b; c] = vscale (1 / 2) (vcross (vsub b a) (vsub c a)).
Proof. unfold area_vector, vsum. cbn [edges zip zip_with app map foldr fst snd]. vring. Qed.
Lemma fan_area_pos ps : 0 < vdot (area_vector ps) (area_vector ps) → 0 < fan_area ps.
Proof.
  intros H. apply (Rlt_le_trans _ (vlen (area_vector ps))).
  - by apply sqrt_lt_R0.
  - rewrite <- (tri_vectors (mean ps)). apply vlen_vrsum.
Qed.
(** Every triangle that has an area is flat and star shaped. *)
Theorem C58_triangle a b c : 0 < vdot (area_vector [a; b; c]) (area_vector [a; b; c]) → ∃ k, flat_star k [a; b; c].
Proof.
  intros H. set (W := area_vector [a; b; c]) in *. assert (0 < vlen W) as Hl by (by apply sqrt_lt_R0). pose proof (vlen_sq W) as Hs.
  exists (vscale (/ vlen W) W). split_and!.
  - replace (vdot (vscale (/ vlen W) W) (vscale (/ vlen W) W)) with (/ vlen W * / vlen W * vdot W W) by (unv; ring). rewrite <- Hs. field. lra.
  - exists (/ vlen W * vdot W a). assert (Ew : W = vscale (1 / 2) (vcross (vsub b a) (vsub c a))) by apply area3. clearbody W. intros p Hp.
    replace (vdot (vscale (/ vlen W) W) p) with (/ vlen W * vdot W p) by (unv; ring). f_equal. rewrite Ew. clear - Hp.
    repeat (apply elem_of_cons in Hp as [->|Hp]; [unv; ring|]). by apply elem_of_nil in Hp.
  - intros e He. assert (T : tri_vector (mean [a; b; c]) e = vscale (1 / 3) W).
    { subst W. rewrite area3, mean3. cbn [edges zip zip_with app] in He. unfold tri_vector.
      repeat (apply elem_of_cons in He as [->|He]; [cbn [fst snd]; vring|]). by apply elem_of_nil in He. }
    rewrite T. replace (vdot (vscale (/ vlen W) W) (vscale (1 / 3) W)) with (/ vlen W * (1 / 3) * vdot W W) by (unv; ring).
    rewrite <- Hs. replace (/ vlen W * (1 / 3) * (vlen W * vlen W)) with (vlen W / 3) by (field; lra). lra.
Qed.

(** Two tetrahedra with one face in common. *)
Definition tets_coords : list R := [0; 0; 0;  1; 0; 0;  0; 1; 0;  0; 0; 1;  1; 1; 1].
Definition tets_pt (n : nat) : vec := nth n [(0, 0, 0); (1, 0, 0); (0, 1, 0); (0, 0, 1); (1, 1, 1)] (0, 0, 0).
Definition tets_nodepos : list nat := [0; 3; 6; 9; 12; 15; 18; 21]%nat.
Definition tets_facenodes : list nat := [1; 2; 3;  0; 2; 1;  0; 3; 1;  0; 3; 2;  1; 2; 4;  1; 3; 4;  2; 3; 4]%nat.
Definition tets_nodes (f : nat) : list nat := nth f [[1; 2; 3]; [0; 2; 1]; [0; 3; 1]; [0; 3; 2]; [1; 2; 4]; [1; 3; 4]; [2; 3; 4]]%nat [].
Definition tets : ugrid := UGrid 2 7 [0; 4; 8]%nat [0; 1; 2; 3; 0; 4; 5; 6]%nat [0; 1; 0; -1; -1; 0; 0; -1; 1; -1; -1; 1; 1; -1]%Z.
Definition tets_cf : list (list nat) := [[0; 1; 2; 3]; [0; 4; 5; 6]]%nat.

Lemma tets_ok : grid_ok tets tets_cf.
Proof.
  assert (Hf : ∀ f a b, face_between tets f a b → (f < 7)%nat).
  { intros f a b [_ H]. apply lookup_lt_Some in H. simpl in H. lia. }
  split.
  - done.
  - apply (CsrProof.starts_holds tets_cf).
  - done.
  - intros f a b H. pose proof (Hf _ _ _ H). destruct H as [H1 H2].
    do 7 (destruct f as [|f]; [vm_compute in H1, H2; simplify_eq; simpl; lia|]). lia.
  - intros i r Hi. do 2 (destruct i as [|i]; [simplify_eq/=; by apply (bool_decide_unpack _)|]). done.
  - intros i r f Hi. split.
    + intros H. do 2 (destruct i as [|i]; [simplify_eq/=;
        repeat (apply elem_of_cons in H as [->|H]; [eexists _, _; split; [split; done|simpl; lia]|]); by apply elem_of_nil in H|]). done.
    + intros (a & b & H & Hab). pose proof (Hf _ _ _ H). destruct H as [H1 H2].
      do 7 (destruct f as [|f]; [vm_compute in H1, H2; simplify_eq;
        do 2 (destruct i as [|i]; [simplify_eq/=; try lia; by apply (bool_decide_unpack _)|]); done|]). lia.
Qed.
Lemma tets_corners f : (f < 7)%nat → corners tets_nodepos tets_facenodes f (tets_nodes f).
Proof. intros Hf. do 7 (destruct f as [|f]; [eexists _, _; split_and!; [done|done|lia|done]|]). lia. Qed.
Lemma tets_points f n : (f < 7)%nat → n ∈ tets_nodes f → at3 tets_coords n (tets_pt n).
Proof.
  intros Hf Hn. assert (n < 5)%nat.
  { do 7 (destruct f as [|f]; [cbn in Hn; repeat (apply elem_of_cons in Hn as [->|Hn]; [lia|]); by apply elem_of_nil in Hn|]). lia. }
  do 5 (destruct n as [|n]; [done|]). lia.
Qed.
Lemma tets_area f : (f < 7)%nat → 0 < vdot (area_vector (poly tets_nodes tets_pt f)) (area_vector (poly tets_nodes tets_pt f)).
Proof.
  intros Hf. do 7 (destruct f as [|f]; [unfold poly; cbn [tets_nodes nth map]; rewrite area3; unfold tets_pt; cbn [nth]; unv; lra|]). lia.
Qed.
Lemma tets_flat f : (f < 7)%nat → ∃ k, flat_star k (poly tets_nodes tets_pt f).
Proof.
  intros Hf. pose proof (tets_area f Hf) as Ha. do 7 (destruct f as [|f]; [by apply C58_triangle|]). lia.
Qed.
(** A triangle makes one tetrahedron. *)
Lemma fan3 o a b c : rsum (λ e, tet_volume o (mean [a; b; c]) e.1 e.2) (edges [a; b; c]) = tet_volume o a b c.
Proof. rewrite mean3. cbn [rsum edges zip zip_with app fst snd]. unv. field. Qed.
Lemma fan3m o a b c : vsum (map (λ e, vscale (tet_volume o (mean [a; b; c]) e.1 e.2) (tet_centre o (mean [a; b; c]) e.1 e.2)) (edges [a; b; c])) = vscale (tet_volume o a b c) (tet_centre o a b c).
Proof.
  rewrite vsum_map, mean3. set (x := vscale (1 / 3) (vadd a (vadd b c))). unfold vrsum. cbn [rsum edges zip zip_with app fst snd].
  assert (tet_volume o x a b = tet_volume o a b c / 3) as -> by (subst x; unv; field).
  assert (tet_volume o x b c = tet_volume o a b c / 3) as -> by (subst x; unv; field).
  assert (tet_volume o x c a = tet_volume o a b c / 3) as -> by (subst x; unv; field).
  generalize (tet_volume o a b c). intros t. subst x. unfold tet_centre. apply vec_eq; unfold vscale, vadd; cbn [fst snd]; field.
Qed.
Lemma tets_volumes c row : tets_cf !! c = Some row → body_volume (0, 0, 0) (cell_sides tets (poly tets_nodes tets_pt) c row) = if decide (c = 0)%nat then 1 / 6 else 1 / 3.
Proof.
  intros Hr. do 2 (destruct c as [|c]; [injection Hr as <-; unfold body_volume, cell_sides, poly; cbn [tets_nodes nth map rsum fst snd]; rewrite !fan3;
    repeat match goal with |- context [side tets ?c ?f] => let b := eval vm_compute in (side tets c f) in change (side tets c f) with b end;
    cbn [sgn]; unfold tets_pt; cbn [nth]; unv; cbn [decide]; try (rewrite decide_True by done); try (rewrite decide_False by done); lra|]). done.
Qed.
(** C59: the hypotheses hold for the two tetrahedra. *)
Example C59_example mN mC mA mc mv : length mN = 21%nat → length mC = 21%nat → length mA = 7%nat → length mc = 6%nat → length mv = 2%nat →
  ∃ N C A cc cv, compute_geometry3 tets_coords tets_nodepos tets_facenodes tets mN mC mA mc mv = Some (N, C, A, cc, cv) ∧ cv = [1 / 6; 1 / 3] ∧
  (∃ m, at3 cc 0 m ∧ m = (1 / 4, 1 / 4, 1 / 4)) ∧ ∀ f, (f < 7)%nat → ∃ k, flat_star k (poly tets_nodes tets_pt f).
Proof.
  intros L1 L2 L3 L4 L5.
  destruct (C59_geometry tets_coords tets_nodepos tets_facenodes tets tets_cf tets_ok tets_nodes tets_pt) with (mN := mN) (mC := mC) (mA := mA) (mc := mc) (mv := mv)
    as (N & C & A & cc & cv & E & _ & Lcc & Lcv & H); try done.
  - intros f Hf. by apply tets_corners.
  - intros f n Hf. by apply tets_points.
  - intros f Hf. apply fan_area_pos. by apply tets_area.
  - intros f Hf. destruct (tets_flat f Hf) as [k Hk]. apply (flat_aligned k); [|done]. intros Hn. pose proof (tets_area f Hf) as Ha. rewrite Hn in Ha. cbn in Ha. unfold vdot in Ha. cbn in Ha. lra.
  - intros c row Hr. do 2 (destruct c as [|c]; [injection Hr as <-; apply (bool_decide_unpack _); vm_compute; done|]). done.
  - intros c row Hr. rewrite tets_volumes by done. destruct (decide (c = 0)%nat); lra.
  - exists N, C, A, cc, cv. split; [done|].
    destruct (H 0%nat _ eq_refl) as (V0 & m0 & HV0 & Hm0 & HH0). destruct (H 1%nat _ eq_refl) as (V1 & m1 & HV1 & _ & HH1).
    assert (V0 = 1 / 6) as E0. { rewrite (proj1 (HH0 (0, 0, 0))). by rewrite (tets_volumes 0). }
    assert (V1 = 1 / 3) as E1. { rewrite (proj1 (HH1 (0, 0, 0))). by rewrite (tets_volumes 1). }
    split; [|split].
    + destruct cv as [|v0 [|v1 [|? ?]]]; try done. cbn in HV0, HV1. congruence.
    + exists m0. split; [done|]. pose proof (proj2 (HH0 (0, 0, 0))) as HM. rewrite E0 in HM.
      assert (EM : body_moment (0, 0, 0) (cell_sides tets (poly tets_nodes tets_pt) 0 [0; 1; 2; 3]%nat) = (1 / 24, 1 / 24, 1 / 24)).
      { unfold body_moment, cell_sides, poly. 
        cbn [tets_nodes nth map fst snd]. rewrite !fan3m. repeat match goal with |- context [side tets ?c ?f] => let b := eval vm_compute in (side tets c f) in change (side tets c f) with b end. unfold vsum. cbn [foldr sgn]. unfold tets_pt. cbn [nth].
        assert (tet_volume (0, 0, 0) (1, 0, 0) (0, 1, 0) (0, 0, 1) = 1 / 6) as -> by (unv; lra). assert (tet_volume (0, 0, 0) (0, 0, 0) (0, 1, 0) (1, 0, 0) = 0) as -> by (unv; lra).
        assert (tet_volume (0, 0, 0) (0, 0, 0) (0, 0, 1) (1, 0, 0) = 0) as -> by (unv; lra). assert (tet_volume (0, 0, 0) (0, 0, 0) (0, 0, 1) (0, 1, 0) = 0) as -> by (unv; lra).
        unfold tet_centre, vscale, vadd. cbn [fst snd]. apply vec_eq; cbn [fst snd]; lra. }
      change (tets_cf !! 0%nat) with (Some [0; 1; 2; 3]%nat) in *. rewrite EM in HM. destruct m0 as [[x y] z]. unfold vscale in HM. cbn [fst snd] in HM. injection HM as H1 H2 H3. apply vec_eq; cbn [fst snd]; lra.
    + apply tets_flat.
Qed.
Print Assumptions C58_triangle.
