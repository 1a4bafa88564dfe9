(** Cases for the geometry in two dimensions. *)
From Coq Require Import Reals Lra Psatz.
From Verif Require Import Base LoopModel LoopProof TableModel GridModel GridSpec CsrSpec CartGeomProof TofSpec AccProof TofProof PolyModel PolySpec PolyProof PolyPlane.
Local Open Scope R_scope.
Unset Default Proof Using.

Ltac unv2 := unfold shoelace, mean2, vcross2, vsub2, vdot2, vright; cbn [edges zip zip_with app map rsum length fst snd].
(** A square and a triangle that share an edge; the last edge has the triangle on
    its right. *)
Definition tile_coords : list R := [0; 0;  2; 0;  2; 2;  0; 2;  3; 1].
Definition tile_pt (n : nat) : vec2 := nth n [(0, 0); (2, 0); (2, 2); (0, 2); (3, 1)] (0, 0).
Definition tile_nodepos : list nat := [0; 2; 4; 6; 8; 10; 12]%nat.
Definition tile_facenodes : list nat := [0; 1;  1; 2;  2; 3;  3; 0;  1; 4;  2; 4]%nat.
Definition tile_nd (f : nat) : nat * nat := nth f [(0, 1); (1, 2); (2, 3); (3, 0); (1, 4); (2, 4)]%nat (0, 0)%nat.
Definition tile : ugrid := UGrid 2 6 [0; 4; 7]%nat [0; 1; 2; 3;  1; 4; 5]%nat [0; -1;  0; 1;  0; -1;  0; -1;  1; -1;  -1; 1]%Z.
Definition tile_cf : list (list nat) := [[0; 1; 2; 3]; [1; 4; 5]]%nat.
Definition tile_ns (c : nat) : list nat := nth c [[0; 1; 2; 3]; [1; 4; 2]]%nat [].
Lemma tile_ok : grid_ok tile tile_cf.
Proof.
  assert (Hf : ∀ f a b, face_between tile f a b → (f < 6)%nat).
  { intros f a b [_ H]. apply lookup_lt_Some in H. simpl in H. lia. }
  split.
  - done.
  - apply (CsrProof.starts_holds tile_cf).
  - done.
  - intros f a b H. pose proof (Hf _ _ _ H). destruct H as [H1 H2].
    do 6 (destruct f as [|f]; [vm_compute in H1, H2; simplify_eq; simpl; lia|]). lia.
  - intros i r Hi. do 2 (destruct i as [|i]; [simplify_eq/=; by apply (bool_decide_unpack _)|]). done.
  - intros i r f Hi. split.
    + intros H. do 2 (destruct i as [|i]; [simplify_eq/=;
        repeat (apply elem_of_cons in H as [->|H]; [eexists _, _; split; [split; done|simpl; lia]|]); by apply elem_of_nil in H|]). done.
    + intros (a & b & H & Hab). pose proof (Hf _ _ _ H). destruct H as [H1 H2].
      do 6 (destruct f as [|f]; [vm_compute in H1, H2; simplify_eq;
        do 2 (destruct i as [|i]; [simplify_eq/=; try lia; by apply (bool_decide_unpack _)|]); done|]). lia.
Qed.
Lemma tile_nodes f : (f < 6)%nat → corners tile_nodepos tile_facenodes f [(tile_nd f).1; (tile_nd f).2].
Proof. intros Hf. do 6 (destruct f as [|f]; [eexists _, _; split_and!; [done|done|lia|done]|]). lia. Qed.
Lemma tile_points f : (f < 6)%nat → at2 tile_coords (tile_nd f).1 (tile_pt (tile_nd f).1) ∧ at2 tile_coords (tile_nd f).2 (tile_pt (tile_nd f).2).
Proof. intros Hf. do 6 (destruct f as [|f]; [done|]). lia. Qed.
Lemma tile_outline c row : tile_cf !! c = Some row → outline tile_nd (side tile c) row (tile_ns c).
Proof. intros Hr. do 2 (destruct c as [|c]; [simplify_eq/=; unfold outline; apply (bool_decide_unpack _); vm_compute; done|]). done. Qed.
Lemma tile_star c row : tile_cf !! c = Some row → star2 (map tile_pt (tile_ns c)).
Proof.
  intros Hr e He. do 2 (destruct c as [|c]; [unfold tile_ns in *; cbn [nth map edges zip zip_with app] in *; unfold tile_pt in *; cbn [nth] in *;
    repeat (apply elem_of_cons in He as [->|He]; [unv2; cbn [INR]; lra|]); by apply elem_of_nil in He|]). done.
Qed.
(** The areas are 4 and 1, and the centre of the triangle is where it should be. *)
Example C59_plane_example mN mC mA mc mv : length mN = 12%nat → length mC = 12%nat → length mA = 6%nat → length mc = 4%nat → length mv = 2%nat →
  ∃ N C A cc, compute_geometry2 tile_coords tile_nodepos tile_facenodes tile mN mC mA mc mv = Some (N, C, A, cc, [4; 1]) ∧ at2 cc 1 (7 / 3, 1).
Proof.
  intros LN LC LA Lc Lv.
  destruct (C59_plane tile_coords tile_nodepos tile_facenodes tile tile_cf tile_ok tile_nd tile_pt tile_nodes tile_points mN mC mA mc mv LN LC LA Lc Lv tile_ns (side tile) tile_outline) as (N & C & A & cc & cv & E & _ & Lcv & H).
  { intros c row Hr ->. do 2 (destruct c as [|c]; [done|]). done. }
  destruct (H 0%nat _ eq_refl) as (_ & a0 & H0 & _ & E0). destruct (H 1%nat _ eq_refl) as (H2 & a1 & H1 & _ & E1).
  rewrite (E0 (tile_star 0 _ eq_refl)) in H0. rewrite (E1 (tile_star 1 _ eq_refl)) in H1.
  exists N, C, A, cc. split.
  - rewrite E. do 2 f_equal. destruct cv as [|x [|y [|]]]; try done. injection H0 as ->. injection H1 as ->. unfold tile_ns, tile_pt. cbn [nth map]. unv2. f_equal; [lra|f_equal; lra].
  - replace (7 / 3, 1) with (mean2 (map tile_pt (tile_ns 1))); [done|]. unfold tile_ns, tile_pt. cbn [nth map]. unv2. cbn [INR]. f_equal; lra.
Qed.

(** One quadrilateral. *)
Section quad.
Variables p q r s : vec2.
Definition quad_coords : list R := [p.1; p.2; q.1; q.2; r.1; r.2; s.1; s.2].
Definition quad_pt (n : nat) : vec2 := nth n [p; q; r; s] p.
Definition quad_nodepos : list nat := [0; 2; 4; 6; 8]%nat.
Definition quad_facenodes : list nat := [0; 1; 1; 2; 2; 3; 3; 0]%nat.
Definition quad_nd (f : nat) : nat * nat := nth f [(0, 1); (1, 2); (2, 3); (3, 0)]%nat (0, 0)%nat.
Definition quad : ugrid := UGrid 1 4 [0; 4]%nat [0; 1; 2; 3]%nat [0; -1; 0; -1; 0; -1; 0; -1]%Z.
Definition quad_cf : list (list nat) := [[0; 1; 2; 3]]%nat.
Lemma quad_ok : grid_ok quad quad_cf.
Proof.
  assert (Hf : ∀ f a b, face_between quad f a b → (f < 4)%nat).
  { intros f a b [_ H]. apply lookup_lt_Some in H. simpl in H. lia. }
  split.
  - done.
  - apply (CsrProof.starts_holds quad_cf).
  - done.
  - intros f a b H. pose proof (Hf _ _ _ H). destruct H as [H1 H2].
    do 4 (destruct f as [|f]; [vm_compute in H1, H2; simplify_eq; simpl; lia|]). lia.
  - intros i l Hi. do 1 (destruct i as [|i]; [simplify_eq/=; by apply (bool_decide_unpack _)|]). done.
  - intros i l f Hi. split.
    + intros H. do 1 (destruct i as [|i]; [simplify_eq/=;
        repeat (apply elem_of_cons in H as [->|H]; [eexists _, _; split; [split; done|simpl; lia]|]); by apply elem_of_nil in H|]). done.
    + intros (a & b & H & Hab). pose proof (Hf _ _ _ H). destruct H as [H1 H2].
      do 4 (destruct f as [|f]; [vm_compute in H1, H2; simplify_eq;
        do 1 (destruct i as [|i]; [simplify_eq/=; try lia; by apply (bool_decide_unpack _)|]); done|]). lia.
Qed.
Lemma quad_out mN mC mA mc mv : length mN = 8%nat → length mC = 8%nat → length mA = 4%nat → length mc = 2%nat → length mv = 1%nat →
  ∃ N C A cc a, compute_geometry2 quad_coords quad_nodepos quad_facenodes quad mN mC mA mc mv = Some (N, C, A, cc, [a]) ∧ at2 cc 0 (mean2 [p; q; r; s]) ∧
    a = 1 / 2 * rsum (λ e, Rabs (vcross2 (vsub2 e.1 (mean2 [p; q; r; s])) (vsub2 e.2 (mean2 [p; q; r; s])))) (edges [p; q; r; s]).
Proof.
  intros LN LC LA Lc Lv.
  destruct (C59_plane quad_coords quad_nodepos quad_facenodes quad quad_cf quad_ok quad_nd quad_pt) with (mN := mN) (mC := mC) (mA := mA) (mc := mc) (mv := mv)
    (ns := λ _ : nat, [0; 1; 2; 3]%nat) (turn := λ _ _ : nat, true) as (N & C & A & cc & cv & E & _ & Lcv & H); try done.
  - intros f Hf. do 4 (destruct f as [|f]; [eexists _, _; split_and!; [done|done|lia|done]|]). cbn in Hf. lia.
  - intros f Hf. do 4 (destruct f as [|f]; [done|]). cbn in Hf. lia.
  - intros c row Hr. do 1 (destruct c as [|c]; [simplify_eq/=; unfold outline; apply (bool_decide_unpack _); vm_compute; done|]). done.
  - intros c row Hr ->. by destruct c.
  - destruct (H 0%nat _ eq_refl) as (H1 & a & H2 & H3 & _). exists N, C, A, cc, a. split; [|done]. rewrite E. do 2 f_equal. destruct cv as [|x [|]]; try done. by injection H2 as ->.
Qed.
End quad.

(** C59: the area is that of the polygon only if the polygon is star shaped: a
    quadrilateral with area 4 gets area 30. *)
Theorem C59_dart_refuted mN mC mA mc mv : length mN = 8%nat → length mC = 8%nat → length mA = 4%nat → length mc = 2%nat → length mv = 1%nat →
  ∃ p q r s N C A cc, compute_geometry2 (quad_coords p q r s) quad_nodepos quad_facenodes quad mN mC mA mc mv = Some (N, C, A, cc, [30]) ∧
    grid_ok quad quad_cf ∧ shoelace [p; q; r; s] = 4.
Proof.
  intros LN LC LA Lc Lv. exists (0, 4), (-4, -4), (0, 3), (4, -4). destruct (quad_out (0, 4) (-4, -4) (0, 3) (4, -4) mN mC mA mc mv LN LC LA Lc Lv) as (N & C & A & cc & a & E & _ & Ea).
  exists N, C, A, cc. split; [|split; [apply quad_ok|unv2; lra]]. rewrite E. do 3 f_equal. rewrite Ea. unv2. cbn [INR].
  repeat match goal with |- context [Rabs ?x] => first [rewrite (Rabs_pos_eq x) by lra|rewrite (Rabs_left x) by lra] end. lra.
Qed.
(** C59: in two dimensions the centre of a cell is not its centroid, even if the
    cell is convex. *)
Theorem C59_centroid_refuted mN mC mA mc mv : length mN = 8%nat → length mC = 8%nat → length mA = 4%nat → length mc = 2%nat → length mv = 1%nat →
  ∃ p q r s N C A cc a m, compute_geometry2 (quad_coords p q r s) quad_nodepos quad_facenodes quad mN mC mA mc mv = Some (N, C, A, cc, [a]) ∧
    a = shoelace [p; q; r; s] ∧ at2 cc 0 m ∧ a * m.1 ≠ (moment2 [p; q; r; s]).1 ∧ star2 [p; q; r; s].
Proof.
  intros LN LC LA Lc Lv. exists (0, 0), (2, 0), (1, 1), (0, 1). destruct (quad_out (0, 0) (2, 0) (1, 1) (0, 1) mN mC mA mc mv LN LC LA Lc Lv) as (N & C & A & cc & a & E & Hm & Ea).
  exists N, C, A, cc, a, (mean2 [(0, 0); (2, 0); (1, 1); (0, 1)]). split; [done|].
  assert (a = 3 / 2) as ->.
  { rewrite Ea. unv2. cbn [INR]. repeat match goal with |- context [Rabs ?x] => first [rewrite (Rabs_pos_eq x) by lra|rewrite (Rabs_left x) by lra] end. lra. }
  split; [unv2; lra|]. split; [done|]. split; [unfold moment2; unv2; cbn [INR]; lra|].
  intros e He. cbn [edges zip zip_with app] in He. repeat (apply elem_of_cons in He as [->|He]; [unv2; cbn [INR]; lra|]). by apply elem_of_nil in He.
Qed.
Print Assumptions C59_dart_refuted.
Print Assumptions C59_centroid_refuted.
