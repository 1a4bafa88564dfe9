(** C59: a cell with a notch gets a volume that is too large. *)
From Coq Require Import Reals Lra Psatz.
From Verif Require Import Base LoopModel LoopProof TableModel GridModel GridSpec CsrSpec CartGeomProof TofSpec AccProof TofProof TwoProps PolyModel PolySpec PolyProof PolyProps PolyCell PolyCellProps PolyCases.
Local Open Scope R_scope.
Unset Default Proof Using.

(** What the code adds for a triangle, whatever its direction. *)
Definition code_tet (N o x : vec) (e : vec * vec) : R :=
  if Rlt_dec (vdot (vcross (vsub e.1 x) (vsub e.2 x)) N) 0 then - tet_volume o x e.1 e.2 else tet_volume o x e.1 e.2.
Lemma tet_code_volume N sg o x ps : ∀ z V M, ∃ u M', foldl (tet_code N sg o x) (vsub z x, V, M) ps = (u, V + sg * rsum (code_tet N o x) (cedges z ps), M').
Proof.
  induction ps as [|p ps IH]; intros z V M.
  - eexists _, _. cbn [foldl]. unfold cedges. cbn [zip zip_with rsum]. by rewrite Rmult_0_r, Rplus_0_r.
  - cbn [foldl]. unfold tet_code at 2. change (cedges z (p :: ps)) with ((z, p) :: cedges p ps). cbn [rsum].
    match goal with |- context [foldl _ (_, V + ?t, ?m) _] => destruct (IH p (V + t) m) as (u & M' & E) end. exists u, M'. rewrite E. f_equal. f_equal.
    unfold code_tet at 2. cbn [fst snd]. destruct (Rlt_dec _ 0); unfold tet_volume; ring.
Qed.

(** A prism over a quadrilateral with a notch. *)
Definition notch_pt (n : nat) : vec := nth n [(0, 4, 0); (-4, -4, 0); (0, 3, 0); (4, -4, 0); (0, 4, 1); (-4, -4, 1); (0, 3, 1); (4, -4, 1)] (0, 0, 0).
Definition notch_coords : list R := [0; 4; 0;  -4; -4; 0;  0; 3; 0;  4; -4; 0;  0; 4; 1;  -4; -4; 1;  0; 3; 1;  4; -4; 1].
Definition notch_nodepos : list nat := [0; 4; 8; 12; 16; 20; 24]%nat.
Definition notch_facenodes : list nat := [4; 5; 6; 7;  0; 1; 2; 3;  0; 1; 5; 4;  1; 2; 6; 5;  2; 3; 7; 6;  3; 0; 4; 7]%nat.
Definition notch_nodes (f : nat) : list nat := nth f [[4; 5; 6; 7]; [0; 1; 2; 3]; [0; 1; 5; 4]; [1; 2; 6; 5]; [2; 3; 7; 6]; [3; 0; 4; 7]]%nat [].
Definition notch : ugrid := UGrid 1 6 [0; 6]%nat [0; 1; 2; 3; 4; 5]%nat [0; -1; -1; 0; 0; -1; 0; -1; 0; -1; 0; -1]%Z.
Definition notch_cf : list (list nat) := [[0; 1; 2; 3; 4; 5]]%nat.
Notation npoly := (poly notch_nodes notch_pt).
Lemma notch_ok : grid_ok notch notch_cf.
Proof.
  assert (Hf : ∀ f a b, face_between notch f a b → (f < 6)%nat).
  { intros f a b [_ H]. apply lookup_lt_Some in H. simpl in H. lia. }
  split.
  - done.
  - apply (CsrProof.starts_holds notch_cf).
  - done.
  - intros f a b H. pose proof (Hf _ _ _ H). destruct H as [H1 H2].
    do 6 (destruct f as [|f]; [vm_compute in H1, H2; simplify_eq; simpl; lia|]). lia.
  - intros i r Hi. do 1 (destruct i as [|i]; [simplify_eq/=; by apply (bool_decide_unpack _)|]). done.
  - intros i r f Hi. split.
    + intros H. do 1 (destruct i as [|i]; [simplify_eq/=;
        repeat (apply elem_of_cons in H as [->|H]; [eexists _, _; split; [split; done|simpl; lia]|]); by apply elem_of_nil in H|]). done.
    + intros (a & b & H & Hab). pose proof (Hf _ _ _ H). destruct H as [H1 H2].
      do 6 (destruct f as [|f]; [vm_compute in H1, H2; simplify_eq;
        do 1 (destruct i as [|i]; [simplify_eq/=; try lia; by apply (bool_decide_unpack _)|]); done|]). lia.
Qed.
Lemma notch_corners f : (f < 6)%nat → corners notch_nodepos notch_facenodes f (notch_nodes f).
Proof. intros Hf. do 6 (destruct f as [|f]; [eexists _, _; split_and!; [done|done|lia|done]|]). lia. Qed.
Lemma notch_points f n : (f < 6)%nat → n ∈ notch_nodes f → at3 notch_coords n (notch_pt n).
Proof.
  intros Hf Hn. assert (n < 8)%nat.
  { do 6 (destruct f as [|f]; [cbn in Hn; repeat (apply elem_of_cons in Hn as [->|Hn]; [lia|]); by apply elem_of_nil in Hn|]). lia. }
  do 8 (destruct n as [|n]; [done|]). lia.
Qed.
Lemma notch_closed : closed (map (λ f, (side notch 0 f, notch_nodes f)) [0; 1; 2; 3; 4; 5]%nat).
Proof. apply (bool_decide_unpack _). vm_compute. done. Qed.

(** The normal of a quadrilateral. *)
Lemma area4 a b c d : area_vector [a; b; c; d] = vscale (1 / 2) (vcross (vsub c a) (vsub d b)).
Proof. unfold area_vector, vsum. cbn [edges zip zip_with app map foldr fst snd]. vring. Qed.
Definition notch_normal (f : nat) : vec := nth f [(0, 0, 4); (0, 0, 4); (-8, 4, 0); (7, -4, 0); (-7, -4, 0); (8, 4, 0)] (0, 0, 0).
Lemma notch_normals f : (f < 6)%nat → area_vector (npoly f) = notch_normal f.
Proof. intros Hf. do 6 (destruct f as [|f]; [unfold poly; cbn [notch_nodes nth map]; rewrite area4; unfold notch_pt, notch_normal; cbn [nth]; apply vec_eq; unv; lra|]). lia. Qed.
Lemma notch_mean f : (f < 6)%nat → mean (npoly f) = nth f [(0, -1 / 4, 1); (0, -1 / 4, 0); (-2, 0, 1 / 2); (-2, -1 / 2, 1 / 2); (2, -1 / 2, 1 / 2); (2, 0, 1 / 2)] (0, 0, 0).
Proof. intros Hf. do 6 (destruct f as [|f]; [unfold poly; cbn [notch_nodes nth map]; rewrite mean4; unfold notch_pt; cbn [nth]; apply vec_eq; unv; lra|]). lia. Qed.
Lemma notch_area f : (f < 6)%nat → 0 < fan_area (npoly f).
Proof. intros Hf. apply fan_area_pos. rewrite notch_normals by done. do 6 (destruct f as [|f]; [unfold notch_normal; cbn [nth]; unv; lra|]). lia. Qed.
Ltac signs := repeat match goal with |- context [Rlt_dec ?a ?b] =>
  let H := fresh in destruct (Rlt_dec a b) as [H|H]; [try (exfalso; revert H; unv; lra)|try (exfalso; revert H; unv; lra)]; clear H end.
Definition notch_parts (o : vec) (f : nat) : R :=
  nth f [10 * (1 - o.2); - 10 * o.2; (16 + 8 * o.1.1 - 4 * o.1.2) / 3; (- 12 - 7 * o.1.1 + 4 * o.1.2) / 3; (- 12 + 7 * o.1.1 + 4 * o.1.2) / 3; (16 - 8 * o.1.1 - 4 * o.1.2) / 3] 0.
Lemma notch_code o f : (f < 6)%nat → rsum (code_tet (area_vector (npoly f)) o (mean (npoly f))) (edges (npoly f)) = notch_parts o f.
Proof.
  intros Hf. rewrite notch_normals, notch_mean by done. destruct o as [[ox oy] oz].
  do 6 (destruct f as [|f]; [unfold poly, notch_normal, notch_parts, notch_pt; cbn [notch_nodes nth map edges zip zip_with app rsum]; unfold code_tet; cbn [fst snd]; signs; unv; lra|]). lia.
Qed.
Lemma notch_true o f : (f < 6)%nat → rsum (λ e, tet_volume o (mean (npoly f)) e.1 e.2) (edges (npoly f)) =
  nth f [4 * (1 - o.2) / 3; - 4 * o.2 / 3; (16 + 8 * o.1.1 - 4 * o.1.2) / 3; (- 12 - 7 * o.1.1 + 4 * o.1.2) / 3; (- 12 + 7 * o.1.1 + 4 * o.1.2) / 3; (16 - 8 * o.1.1 - 4 * o.1.2) / 3] 0.
Proof.
  intros Hf. rewrite notch_mean by done. destruct o as [[ox oy] oz].
  do 6 (destruct f as [|f]; [unfold poly, notch_pt; cbn [notch_nodes nth map edges zip zip_with app rsum fst snd]; unv; lra|]). lia.
Qed.
Notation notch_row := [0; 1; 2; 3; 4; 5]%nat.

(** C59: the volume is not that of the body if the faces are not star shaped
    around the mean of their corners: the prism has volume 4 and gets 38/3. *)
Theorem C59_notch_refuted mN mC mA mc mv : length mN = 18%nat → length mC = 18%nat → length mA = 6%nat → length mc = 3%nat → length mv = 1%nat →
  ∃ N C A cc, compute_geometry3 notch_coords notch_nodepos notch_facenodes notch mN mC mA mc mv = Some (N, C, A, cc, [38 / 3]) ∧
    grid_ok notch notch_cf ∧ closed (map (λ f, (side notch 0 f, notch_nodes f)) notch_row) ∧
    ∀ o, body_volume o (cell_sides notch npoly 0 notch_row) = 4.
Proof.
  intros LN LC LA Lc Lv. assert (Hpoly : ∀ f, (f < 6)%nat → polygon notch_coords notch_nodepos notch_facenodes f (npoly f)).
  { intros f Hf. exists (notch_nodes f). split; [by apply notch_corners|]. apply (poly_F2 notch_coords notch); [|done]. intros f' n Hf'. by apply notch_points. }
  destruct (C58_faces notch_coords notch_nodepos notch_facenodes 6 npoly Hpoly notch_area mN mC mA LN LC LA) as (N & C & A & E & _ & LC' & _ & HF).
  unfold compute_geometry3. change (u_nf notch) with 6%nat. rewrite E. cbn [mbind option_bind]. unfold cell_geometry3. change (u_nc notch) with 1%nat. cbn [for_loop].
  unfold cell_body at 1. cbn [notch u_facepos u_cellfaces lookup list_lookup Nat.add mbind option_bind Nat.sub].
  change [0; 1; 2; 3; 4; 5]%nat with notch_row at 1 2.
  assert (Hs : slice notch_row 0 (length notch_row) = Some notch_row) by done. change 6%nat with (length notch_row).
  rewrite (loop_slice notch_row _ (λ x f, each3 Rplus x (default zero3 (read3 C f))) 0 notch_row); [| |done].
  2:{ intros k f s E1 Hf. rewrite E1. cbn [mbind option_bind]. assert (f < 6)%nat as Hf6 by (repeat (apply elem_of_cons in Hf as [->|Hf]; [lia|]); by apply elem_of_nil in Hf).
      destruct (HF f Hf6) as (_ & _ & x & Hx & _). apply read3_at in Hx. by rewrite Hx. }
  cbn [mbind option_bind]. rewrite div3_ok; [|change (IZR 6 ≠ 0); lra]. cbn [mbind option_bind]. set (xc := vscale _ (foldl _ _ notch_row)). clearbody xc.
  assert (K : ∀ k f s, notch_row !! k = Some f → f ∈ notch_row → ∃ M, cell_face notch_coords notch_nodepos notch_facenodes (u_facecells notch) N notch_row 0 xc k s = Some (s.1 + sgn (side notch 0 f) * notch_parts xc f, M)).
  { intros k f s E1 Hf. assert (f < 6)%nat as Hf6 by (repeat (apply elem_of_cons in Hf as [->|Hf]; [lia|]); by apply elem_of_nil in Hf).
    unfold cell_face. rewrite E1. cbn [mbind option_bind].
    assert (npoly f ≠ []) as Hne by (do 6 (destruct f as [|f]; [done|]); lia).
    destruct (face_start_ok notch_coords notch_nodepos notch_facenodes f (npoly f) (Hpoly f Hf6) Hne) as (b & e & z & ns & Hcor & HF2 & Hl & Hs2 & Hz & Est).
    rewrite Est. cbn [mbind option_bind]. rewrite Hl.
    assert (∃ a, u_facecells notch !! (2 * f)%nat = Some a ∧ (if decide (a = 0%Z) then 1 else -1) = sgn (side notch 0 f)) as (a & Ha & Es).
    { do 6 (destruct f as [|f]; [eexists; split; [reflexivity|by vm_compute]|]). lia. }
    rewrite (loop_nodes notch_coords notch_facenodes _ (tet_code (area_vector (npoly f)) (if decide (a = Z.of_nat 0) then 1 else -1) xc (mean (npoly f))) b ns (npoly f)); [| |done|done].
    2:{ intros k' node p s' E2 _ E3. apply (cell_tri_ok _ _ _ _ _ _ _ _ _ node); [done|done|by apply HF|done]. }
    destruct (tet_code_volume (area_vector (npoly f)) (if decide (a = Z.of_nat 0) then 1 else -1) xc (mean (npoly f)) (npoly f) z s.1 s.2) as (u & M' & EV). rewrite EV. cbn [mbind option_bind].
    exists M'. rewrite (rsum_cedges _ _ _ Hz), notch_code by done. change (Z.of_nat 0) with 0%Z. by rewrite Es. }
  assert (E6 : ∃ M, for_loop (length notch_row) 0 (cell_face notch_coords notch_nodepos notch_facenodes (u_facecells notch) N notch_row 0 xc) (0, zero3) = Some (38 / 3, M)).
  { cbn [length for_loop].
    do 6 (match goal with |- context [cell_face _ _ _ _ _ _ _ _ ?k ?s] => destruct (K k k s eq_refl) as [? ->]; [by apply (bool_decide_unpack _)|]; cbn [mbind option_bind fst snd] end).
    eexists. do 2 f_equal. repeat match goal with |- context [side notch ?c ?f] => let b := eval vm_compute in (side notch c f) in change (side notch c f) with b end.
    unfold notch_parts. cbn [sgn nth]. lra. }
  destruct E6 as (M & E6). cbn [length] in E6 |- *. 
  match goal with |- context [for_loop 6 0 ?h ?s] => replace (for_loop 6 0 h s) with (Some (38 / 3, M)) by (symmetry; exact E6) end.
  cbn [mbind option_bind]. rewrite div3_ok by lra. cbn [mbind option_bind fst snd].
  destruct (write3_ok mc 0 (each3 Rplus xc (vscale (/ (38 / 3)) M)) 1 Lc ltac:(lia)) as (cc & Ec & _). rewrite Ec. cbn [mbind option_bind].
  rewrite upd_Some by lia. cbn [mbind option_bind]. destruct mv as [|v [|? ?]]; try done. cbn [insert list_insert].
  exists N, C, A, cc. split; [done|]. split; [apply notch_ok|]. split; [apply notch_closed|]. intros o.
  unfold body_volume, cell_sides. cbn [map rsum fst snd]. rewrite !notch_true by lia.
  repeat match goal with |- context [side notch ?c ?f] => let b := eval vm_compute in (side notch c f) in change (side notch c f) with b end. cbn [sgn nth]. lra.
Qed.
Print Assumptions C59_notch_refuted.
