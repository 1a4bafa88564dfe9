(** C59: cells of a grid: volumes and centroids. *)
From Coq Require Import Reals Lra Psatz.
From Verif Require Import Base LoopModel LoopProof TableModel GridModel GridSpec CartGeomProof TofSpec AccProof TofProof TwoProps PolyModel PolySpec PolyProof PolyProps PolyCell.
Local Open Scope R_scope.
Unset Default Proof Using.

(** The step of the code, which looks at the direction of the triangle. *)
Definition tet_code (N : vec) (sg : R) (o x : vec) (s : arr3 * R * arr3) (p : vec) : arr3 * R * arr3 :=
  let '(u, V, M) := s in
  let v := vsub p x in let t := sg * (vdot (vcross u v) (vsub x o) / 6) in
  let t := if Rlt_dec (vdot (vcross u v) N) 0 then - t else t in
  (v, V + t, vadd M (vscale (t * 3 / 4) (vsub (vadd x (vscale (1 / 3) (vadd u v))) o))).
Lemma tet_code_steps N sg o x ps : ∀ z V M, (∀ e, e ∈ cedges z ps → 0 <= vdot (vcross (vsub e.1 x) (vsub e.2 x)) N) →
  foldl (tet_code N sg o x) (vsub z x, V, M) ps = foldl (tet_step sg o x) (vsub z x, V, M) ps.
Proof.
  induction ps as [|p ps IH]; intros z V M H; [done|]. cbn [foldl]. unfold tet_code at 2, tet_step at 2.
  change (cedges z (p :: ps)) with ((z, p) :: cedges p ps) in H. pose proof (H (z, p) (elem_of_list_here _ _)) as H0. cbn [fst snd] in H0.
  destruct (Rlt_dec _ 0); [lra|]. apply IH. intros e He. apply H. by right.
Qed.
Lemma cell_tri_ok coords facenodes neighbors fnormals c face xc x k node p s N a : facenodes !! k = Some node → at3 coords node p → at3 fnormals face N → neighbors !! (2 * face)%nat = Some a →
  cell_tri coords facenodes neighbors fnormals c face xc x k s = Some (tet_code N (if decide (a = Z.of_nat c) then 1 else -1) xc x s p).
Proof.
  intros E1 E2 E3 E4. destruct s as [[u V] M]. unfold cell_tri, tet_code. rewrite E1. cbn [mbind option_bind]. apply read3_at in E2, E3. rewrite E2. cbn [mbind option_bind]. rewrite E3. cbn [mbind option_bind]. rewrite E4. cbn [mbind option_bind].
  rewrite !each3_minus, cross_eq. cbv zeta. set (w := vcross u (vsub p x)). set (d := vsub x xc). change (w.1.1 * d.1.1 + w.1.2 * d.1.2 + w.2 * d.2) with (vdot w d). change (w.1.1 * N.1.1 + w.1.2 * N.1.2 + w.2 * N.2) with (vdot w N).
  clearbody w d. set (t := if decide (a = Z.of_nat c) then _ else _). set (t' := if Rlt_dec (vdot w N) 0 then - ((if decide (a = Z.of_nat c) then 1 else -1) * _) else _).
  assert (t = t') as <- by (subst t t'; destruct (Rlt_dec (vdot w N) 0), (decide (a = Z.of_nat c)); field).
  clearbody t. apply f_equal. apply f_equal2; [done|]. unfold each3, twothirds. clear. generalize (vsub p x). intros v. vring.
Qed.

(** A triangle in a plane. *)
Lemma flat_tri k x e : vdot k k = 1 → vdot k (vsub e.1 x) = 0 → vdot k (vsub e.2 x) = 0 → tri_vector x e = vscale (vdot k (tri_vector x e)) k.
Proof.
  intros Hk U V. unfold tri_vector. set (u := vsub e.1 x) in *. set (v := vsub e.2 x) in *. clearbody u v.
  assert (vscale (vdot k k) (vscale (1 / 2) (vcross u v)) = vadd (vscale (vdot k (vscale (1 / 2) (vcross u v))) k)
     (vscale (1 / 2) (vcross k (vsub (vscale (vdot k u) v) (vscale (vdot k v) u))))) as EE by (unfold vdot; vring).
  rewrite Hk, U, V in EE. transitivity (vscale 1 (vscale (1 / 2) (vcross u v))); [vring|]. rewrite EE. vring.
Qed.
Lemma flat_aligned k ps : ps ≠ [] → flat_star k ps → aligned ps.
Proof.
  intros Hne (Hk & [d Hd] & Hs) e He. assert (Hx : vdot k (mean ps) = d) by (by apply mean_flat).
  assert (T : ∀ e, e ∈ edges ps → tri_vector (mean ps) e = vscale (vdot k (tri_vector (mean ps) e)) k).
  { intros e' He'. apply edges_in in He' as [H1 H2]. apply Hd in H1, H2. apply flat_tri; [done| |].
    - transitivity (vdot k e'.1 - vdot k (mean ps)); [unv; ring|lra].
    - transitivity (vdot k e'.2 - vdot k (mean ps)); [unv; ring|lra]. }
  rewrite <- (tri_vectors (mean ps)). rewrite vdot_comm, <- rsum_dot. apply rsum_nonneg. intros e' He'.
  pose proof (Hs e He) as P. pose proof (Hs e' He') as P'. rewrite (T e He), (T e' He').
  revert P P'. generalize (vdot k (tri_vector (mean ps) e)) (vdot k (tri_vector (mean ps) e')). intros t t' P P'.
  replace (vdot (vscale t' k) (vscale t k)) with (t * t' * vdot k k) by (unv; ring). rewrite Hk. nra.
Qed.

Section cells.
Variable coords : list R.
Variables nodepos facenodes : list nat.
Variable g : ugrid.
Variable cf : list (list nat).
Hypothesis Hg : grid_ok g cf.
Variable nodes : nat → list nat.
Variable pt : nat → vec.
Hypothesis Hnodes : ∀ f, (f < u_nf g)%nat → corners nodepos facenodes f (nodes f).
Hypothesis Hpt : ∀ f n, (f < u_nf g)%nat → n ∈ nodes f → at3 coords n (pt n).
Definition poly (f : nat) : list vec := map pt (nodes f).
Hypothesis Harea : ∀ f, (f < u_nf g)%nat → 0 < fan_area (poly f).
Hypothesis Haligned : ∀ f, (f < u_nf g)%nat → aligned (poly f).

Lemma row_lt c row f : cf !! c = Some row → f ∈ row → (f < u_nf g)%nat.
Proof using Hg.
  intros Hr Hf. apply (ok_inc _ _ Hg c row f Hr) in Hf as (a & b & [Ha Hb] & _). apply lookup_lt_Some in Hb. rewrite (ok_faces _ _ Hg) in Hb. lia.
Qed.
Lemma poly_F2 f : (f < u_nf g)%nat → Forall2 (at3 coords) (nodes f) (poly f).
Proof using Hpt.
  intros Hf. unfold poly. assert (H : ∀ n, n ∈ nodes f → at3 coords n (pt n)) by (intros; by eapply Hpt).
  induction (nodes f) as [|n l IH]; [constructor|]. constructor; [apply H; left|]. apply IH. intros m Hm. apply H. by right.
Qed.
Lemma poly_ok f : (f < u_nf g)%nat → polygon coords nodepos facenodes f (poly f).
Proof using Hpt Hnodes. intros Hf. exists (nodes f). split; [by apply Hnodes|]. by apply poly_F2. Qed.
Lemma poly_ne f : (f < u_nf g)%nat → poly f ≠ [].
Proof using Harea. intros Hf Hn. pose proof (Harea f Hf) as Hp. rewrite Hn in Hp. unfold fan_area, edges in Hp. cbn in Hp. lra. Qed.
Lemma sides_eq c row : cell_sides g poly c row = map (λ f, (f.1, map pt f.2)) (map (λ f, (side g c f, nodes f)) row).
Proof. unfold cell_sides. by rewrite map_map. Qed.

(** One face of a cell. *)
Lemma cell_face_ok N c row xc i f s : cf !! c = Some row → f ∈ row → u_cellfaces g !! i = Some f → at3 N f (area_vector (poly f)) →
  cell_face coords nodepos facenodes (u_facecells g) N (u_cellfaces g) c xc i s =
  Some (s.1 + sgn (side g c f) * rsum (λ e, tet_volume xc (mean (poly f)) e.1 e.2) (edges (poly f)),
        vadd s.2 (vscale (sgn (side g c f)) (vrsum (λ e, vscale (tet_volume xc (mean (poly f)) e.1 e.2) (vsub (tet_centre xc (mean (poly f)) e.1 e.2) xc)) (edges (poly f))))).
Proof using Hg Hnodes Hpt Harea Haligned.
  intros Hr Hf Ei HN. pose proof (row_lt c row f Hr Hf) as Hlt. unfold cell_face. rewrite Ei. cbn [mbind option_bind].
  destruct (face_start_ok coords nodepos facenodes f (poly f) (poly_ok f Hlt) (poly_ne f Hlt)) as (b & e & z & ns & Hcor & HF & Hl & Hs & Hz & Est).
  rewrite Est. cbn [mbind option_bind]. rewrite Hl. apply (ok_inc _ _ Hg c row f Hr) in Hf as (a & a' & [Ha _] & _).
  rewrite (loop_nodes coords facenodes _ (tet_code (area_vector (poly f)) (if decide (a = Z.of_nat c) then 1 else -1) xc (mean (poly f))) b ns (poly f)); [| |done|done].
  2:{ intros k node p s' E1 _ E2. by apply (cell_tri_ok _ _ _ _ _ _ _ _ _ node). }
  assert (Es : (if decide (a = Z.of_nat c) then 1 else -1) = sgn (side g c f)).
  { unfold side. rewrite Ha. destruct (decide (a = Z.of_nat c)) as [->|Hn]; [by rewrite bool_decide_true|]. rewrite bool_decide_false; [done|]. intros [=]; done. }
  rewrite Es. rewrite tet_code_steps, tet_steps.
  - cbn [mbind option_bind]. by rewrite (rsum_cedges _ _ _ Hz), (vrsum_perm _ _ _ (cedges_perm _ _ Hz)).
  - intros e' He. rewrite (cedges_perm _ _ Hz) in He. pose proof (Haligned f Hlt e' He) as H. unfold tri_vector in H.
    replace (vdot (vscale (1 / 2) (vcross (vsub e'.1 (mean (poly f))) (vsub e'.2 (mean (poly f))))) (area_vector (poly f))) with (1 / 2 * vdot (vcross (vsub e'.1 (mean (poly f))) (vsub e'.2 (mean (poly f)))) (area_vector (poly f))) in H by (unfold vdot, vscale; cbn [fst snd]; ring). lra.
Qed.
(** All faces of a cell. *)
Lemma cell_faces_ok N c row xc b : cf !! c = Some row → slice (u_cellfaces g) b (length row) = Some row → (∀ f, (f < u_nf g)%nat → at3 N f (area_vector (poly f))) →
  ∃ M, for_loop (length row) b (cell_face coords nodepos facenodes (u_facecells g) N (u_cellfaces g) c xc) (0, zero3) =
    Some (body_volume xc (cell_sides g poly c row), M) ∧ vadd (vscale (body_volume xc (cell_sides g poly c row)) xc) M = body_moment xc (cell_sides g poly c row).
Proof using Hg Hnodes Hpt Harea Haligned.
  intros Hr Hs HN.
  rewrite (loop_slice (u_cellfaces g) _ (λ s f, (s.1 + sgn (side g c f) * rsum (λ e, tet_volume xc (mean (poly f)) e.1 e.2) (edges (poly f)),
        vadd s.2 (vscale (sgn (side g c f)) (vrsum (λ e, vscale (tet_volume xc (mean (poly f)) e.1 e.2) (vsub (tet_centre xc (mean (poly f)) e.1 e.2) xc)) (edges (poly f)))))) b row); [| |done].
  2:{ intros k f s E1 Hf. apply (cell_face_ok N c row); [done|done|done|]. apply HN. by eapply row_lt. }
  assert (K : ∀ l V M, foldl (λ s f, (s.1 + sgn (side g c f) * rsum (λ e, tet_volume xc (mean (poly f)) e.1 e.2) (edges (poly f)),
        vadd s.2 (vscale (sgn (side g c f)) (vrsum (λ e, vscale (tet_volume xc (mean (poly f)) e.1 e.2) (vsub (tet_centre xc (mean (poly f)) e.1 e.2) xc)) (edges (poly f)))))) (V, M) l =
     (V + body_volume xc (cell_sides g poly c l), vadd M (vrsum (λ f, vscale (sgn (side g c f)) (vrsum (λ e, vscale (tet_volume xc (mean (poly f)) e.1 e.2) (vsub (tet_centre xc (mean (poly f)) e.1 e.2) xc)) (edges (poly f)))) l))).
  { clear. intros l. induction l as [|f l IH]; intros V M; cbn [foldl fst snd].
    - apply f_equal2; [cbn; ring|]. unfold vrsum. cbn [rsum]. by rewrite vadd_0_r.
    - rewrite IH, vrsum_cons, vadd_assoc. apply f_equal2; [|done]. unfold body_volume, cell_sides. cbn [map rsum fst snd]. ring. }
  rewrite K. unfold zero3. rewrite Rplus_0_l, vadd_0_l. eexists. split; [done|].
  clear. unfold body_volume, body_moment, cell_sides. rewrite vsum_map, rsum_map. cbn [fst snd].
  induction row as [|f row IH]; cbn [map].
  - unfold vrsum. cbn [rsum]. vring.
  - rewrite !vrsum_cons. cbn [rsum fst snd]. rewrite <- IH. clear IH. rewrite vsum_map.
    assert (vrsum (λ e, vscale (tet_volume xc (mean (poly f)) e.1 e.2) (tet_centre xc (mean (poly f)) e.1 e.2)) (edges (poly f)) =
      vadd (vrsum (λ e, vscale (tet_volume xc (mean (poly f)) e.1 e.2) (vsub (tet_centre xc (mean (poly f)) e.1 e.2) xc)) (edges (poly f))) (vscale (rsum (λ e, tet_volume xc (mean (poly f)) e.1 e.2) (edges (poly f))) xc)) as ->.
    { induction (edges (poly f)) as [|e l IHl]; [unfold vrsum; cbn [rsum]; vring|]. rewrite !vrsum_cons. cbn [rsum]. rewrite IHl. clear IHl.
      generalize (tet_volume xc (mean (poly f)) e.1 e.2) (tet_centre xc (mean (poly f)) e.1 e.2) (rsum (λ e, tet_volume xc (mean (poly f)) e.1 e.2) l) (vrsum (λ e, vscale (tet_volume xc (mean (poly f)) e.1 e.2) (vsub (tet_centre xc (mean (poly f)) e.1 e.2) xc)) l). intros. vring. }
    generalize (rsum (λ e, tet_volume xc (mean (poly f)) e.1 e.2) (edges (poly f))) (vrsum (λ e, vscale (tet_volume xc (mean (poly f)) e.1 e.2) (vsub (tet_centre xc (mean (poly f)) e.1 e.2) xc)) (edges (poly f)))
      (rsum (λ x, sgn (side g c x) * rsum (λ e, tet_volume xc (mean (poly x)) e.1 e.2) (edges (poly x))) row).
    intros. generalize (sgn (side g c f)). intros. match goal with |- context [vrsum ?h row] => generalize (vrsum h row) end. intros. vring.
Qed.

Hypothesis Hclosed : ∀ c row, cf !! c = Some row → closed (map (λ f, (side g c f, nodes f)) row).
Hypothesis Hvol : ∀ c row, cf !! c = Some row → body_volume (0, 0, 0) (cell_sides g poly c row) ≠ 0.
Variables mN mC mA mc mv : list R.
Hypothesis LN : length mN = (3 * u_nf g)%nat.
Hypothesis LC : length mC = (3 * u_nf g)%nat.
Hypothesis LA : length mA = u_nf g.
Hypothesis Lc : length mc = (3 * u_nc g)%nat.
Hypothesis Lv : length mv = u_nc g.
Notation result := (compute_geometry3 coords nodepos facenodes g mN mC mA mc mv).

(** C59: volume and centroid of each cell are those of the body, from whatever
    point the tetrahedra start. *)
Theorem C59_geometry : ∃ N C A cc cv, result = Some (N, C, A, cc, cv) ∧
  face_geometry3 coords nodepos facenodes (u_nf g) (mN, mC, mA) = Some (N, C, A) ∧ length cc = (3 * u_nc g)%nat ∧ length cv = u_nc g ∧
  ∀ c row, cf !! c = Some row → ∃ V m, cv !! c = Some V ∧ at3 cc c m ∧
    ∀ o, V = body_volume o (cell_sides g poly c row) ∧ vscale V m = body_moment o (cell_sides g poly c row).
Proof using Hg Hnodes Hpt Harea Haligned Hclosed Hvol LN LC LA Lc Lv.
  destruct (C58_faces coords nodepos facenodes (u_nf g) poly poly_ok Harea mN mC mA LN LC LA) as (N & C & A & E & LN' & LC' & LA' & HF).
  unfold compute_geometry3. rewrite E. cbn [mbind option_bind]. unfold cell_geometry3.
  assert (HN : ∀ f, (f < u_nf g)%nat → at3 N f (area_vector (poly f))) by (intros f Hf; apply HF, Hf).
  destruct (for_loop_inv (λ k s, length s.1 = (3 * u_nc g)%nat ∧ length s.2 = u_nc g ∧ ∀ c row, (c < k)%nat → cf !! c = Some row → ∃ V m, s.2 !! c = Some V ∧ at3 s.1 c m ∧
    ∀ o, V = body_volume o (cell_sides g poly c row) ∧ vscale V m = body_moment o (cell_sides g poly c row))
    (u_nc g) 0 (cell_body coords nodepos facenodes (u_facecells g) N C (u_facepos g) (u_cellfaces g)) (mc, mv)) as ([cc cv] & EL & H1 & H2 & H3).
  - do 2 (split; [done|]). intros; lia.
  - intros c [cc cv] Hc (L1 & L2 & Hd). cbn [fst snd] in *. destruct (lookup_lt_is_Some_2 cf c) as [row Hrow]; [rewrite (ok_cells _ _ Hg); lia|].
    destruct (proj2 (proj2 (proj2 (ok_rows _ _ Hg))) c row Hrow) as (b & e & Hb & He & Hle & Hs). pose proof (slice_length _ _ _ _ Hs) as Hl.
    unfold cell_body. rewrite Hb. replace (c + 1)%nat with (S c) by lia. rewrite He. cbn [mbind option_bind]. rewrite <- Hl in Hs |- *.
    rewrite (loop_slice (u_cellfaces g) _ (λ x f, each3 Rplus x (default zero3 (read3 C f))) b row); [| |done].
    2:{ intros k f s E1 Hf. rewrite E1. cbn [mbind option_bind]. destruct (HF f (row_lt _ _ _ Hrow Hf)) as (_ & _ & x & Hx & _). apply read3_at in Hx. by rewrite Hx. }
    cbn [mbind option_bind]. pose proof (Hvol c row Hrow) as Hv.
    assert (row ≠ []) as Hne. { intros ->. unfold body_volume, cell_sides in Hv. cbn in Hv. lra. }
    rewrite <- Nat2Z.inj_sub, <- INR_IZR_INZ by done. rewrite <- Hl. assert (INR (length row) ≠ 0) by (apply not_0_INR; destruct row; [done|cbn; lia]).
    rewrite div3_ok by done. cbn [mbind option_bind]. set (xc := vscale _ (foldl _ _ row)).
    destruct (cell_faces_ok N c row xc b Hrow Hs HN) as (M & EM & HM). rewrite EM. cbn [mbind option_bind].
    assert (VA : ∀ o o', body_volume o (cell_sides g poly c row) = body_volume o' (cell_sides g poly c row)) by (intros o o'; rewrite sides_eq; by apply volume_any, Hclosed).
    assert (MA : ∀ o o', body_moment o (cell_sides g poly c row) = body_moment o' (cell_sides g poly c row)) by (intros o o'; rewrite sides_eq; by apply moment_any, Hclosed).
    set (V := body_volume xc (cell_sides g poly c row)) in *. assert (V ≠ 0) as HV0 by (unfold V; by rewrite (VA xc (0, 0, 0))).
    rewrite div3_ok by done. cbn [mbind option_bind].
    cbn [fst snd]. destruct (write3_ok cc c (each3 Rplus xc (vscale (/ V) M)) (u_nc g) L1) as (cc' & Ec & Lcc & Hcc & Hcc'); [lia|]. rewrite Ec. cbn [mbind option_bind].
    rewrite upd_Some by lia. cbn [mbind option_bind]. eexists. split; [done|]. cbn [fst snd]. split; [done|]. split; [by rewrite insert_length|].
    intros c' row' Hc' Hr'. destruct (decide (c' = c)) as [->|Hn].
    + rewrite Hrow in Hr'. injection Hr' as <-. exists V, (each3 Rplus xc (vscale (/ V) M)). split; [apply list_lookup_insert; lia|]. split; [done|].
      intros o. split; [unfold V; apply VA|]. rewrite (MA o xc), <- HM. change (each3 Rplus xc (vscale (/ V) M)) with (vadd xc (vscale (/ V) M)). clearbody xc V. clear - HV0. vring; done.
    + destruct (Hd c' row') as (V' & m' & G1 & G2 & G3); [lia|done|]. exists V', m'. split; [by rewrite list_lookup_insert_ne|]. split; [by apply Hcc'|done].
  - cbn [fst snd] in *. rewrite EL. cbn [mbind option_bind]. exists N, C, A, cc, cv. do 4 (split; [done|]). intros c row Hr. apply H3; [|done].
    apply lookup_lt_Some in Hr. rewrite (ok_cells _ _ Hg) in Hr. lia.
Qed.

Section out.
Variables N C A cc cv : list R.
Hypothesis E : result = Some (N, C, A, cc, cv).
Lemma out_faces : face_geometry3 coords nodepos facenodes (u_nf g) (mN, mC, mA) = Some (N, C, A).
Proof using Hg Hnodes Hpt Harea Haligned Hclosed Hvol LN LC LA Lc Lv E.
  destruct C59_geometry as (N' & C' & A' & cc' & cv' & E' & HF & _). rewrite E in E'. by injection E' as -> -> -> -> ->.
Qed.
Lemma out_volume c row V : cf !! c = Some row → cv !! c = Some V → ∀ o, V = body_volume o (cell_sides g poly c row).
Proof using Hg Hnodes Hpt Harea Haligned Hclosed Hvol LN LC LA Lc Lv E.
  intros Hr HV o. destruct C59_geometry as (N' & C' & A' & cc' & cv' & E' & _ & _ & _ & H). rewrite E in E'. injection E' as <- <- <- <- <-.
  destruct (H c row Hr) as (V' & m & HV' & _ & HH). rewrite HV in HV'. injection HV' as <-. apply HH.
Qed.
Lemma out_normal f n : (f < u_nf g)%nat → at3 N f n → n = area_vector (poly f).
Proof using Hg Hnodes Hpt Harea Haligned Hclosed Hvol LN LC LA Lc Lv E.
  intros Hf Hn. destruct (C58_faces coords nodepos facenodes (u_nf g) poly poly_ok Harea mN mC mA LN LC LA) as (N' & C' & A' & E' & _ & _ & _ & HF).
  rewrite out_faces in E'. injection E' as <- <- <-. destruct (HF f Hf) as (H & _). by eapply at3_fun.
Qed.

(** C59: the outward normals of a cell add up to nothing. *)
Theorem C59_outward c row nrm : cf !! c = Some row → (∀ f, f ∈ row → at3 N f (nrm f)) →
  vsum (map (λ f, vscale (sgn (side g c f)) (nrm f)) row) = (0, 0, 0).
Proof using Hg Hnodes Hpt Harea Haligned Hclosed Hvol LN LC LA Lc Lv E.
  intros Hr Hn. rewrite <- (vectors_zero pt _ (Hclosed c row Hr)). rewrite <- sides_eq. unfold cell_sides. rewrite !vsum_map.
  transitivity (vrsum (λ f, vscale (sgn (side g c f)) (area_vector (poly f))) row).
  - apply vrsum_ext. intros f Hf. f_equal. apply out_normal; [by eapply row_lt|by apply Hn].
  - rewrite <- !vsum_map, map_map. done.
Qed.
(** C59: if the faces of a cell are flat and star shaped, its normals, face
    centroids and volume fit together as for linear functions: the sum over the
    faces of the flux of [d] times the moment of [w] is [d . w] times the
    volume. *)
Theorem C59_green c row nrm cen V : cf !! c = Some row → (∀ f, f ∈ row → at3 N f (nrm f) ∧ at3 C f (cen f)) →
  (∀ f, f ∈ row → ∃ k, flat_star k (poly f)) → cv !! c = Some V →
  ∀ o d w, rsum (λ f, sgn (side g c f) * (vdot (nrm f) d * vdot (vsub (cen f) o) w)) row = vdot d w * V.
Proof using Hg Hnodes Hpt Harea Haligned Hclosed Hvol LN LC LA Lc Lv E.
  intros Hr Hnc Hflat HV o d w. rewrite (out_volume c row V Hr HV (0, 0, 0)). rewrite sides_eq.
  set (CC := λ b : bool * list vec, vscale (/ fan_area b.2) (vrsum (λ e, vscale (vlen (tri_vector (mean b.2) e)) (tri_centre (mean b.2) e)) (edges b.2))).
  destruct (C58_faces coords nodepos facenodes (u_nf g) poly poly_ok Harea mN mC mA LN LC LA) as (N' & C' & A' & E' & _ & _ & LA' & HF).
  rewrite out_faces in E'. injection E' as <- <- <-.
  assert (HC : ∀ f, f ∈ row → cen f = CC (side g c f, poly f)).
  { intros f Hf. pose proof (row_lt _ _ _ Hr Hf) as Hlt. destruct (HF f Hlt) as (_ & _ & c' & Hc' & Ec'). destruct (Hnc f Hf) as [_ H]. rewrite (at3_fun _ _ _ _ H Hc').
    unfold CC. cbn [snd]. rewrite <- vsum_map, <- Ec'. pose proof (Harea f Hlt). vring; lra. }
  rewrite <- (green_faces pt _ (Hclosed c row Hr) o d w (λ b, area_vector b.2) CC).
  - rewrite <- sides_eq. unfold cell_sides. rewrite rsum_map. apply rsum_ext. intros f Hf. cbn [fst snd]. rewrite (HC f Hf).
    rewrite (out_normal f (nrm f)); [done|by eapply row_lt|by apply Hnc].
  - done.
  - intros b Hb d' w'. rewrite <- sides_eq in Hb. apply elem_of_list_fmap in Hb as (f & -> & Hf). cbn [fst snd]. pose proof (row_lt _ _ _ Hr Hf) as Hlt.
    destruct (Hflat f Hf) as (k & Hk). pose proof Hk as (Hkk & [dd Hd] & Hstar).
    destruct (HF f Hlt) as (HN' & HA' & c' & Hc' & Ec').
    destruct (C58_values coords nodepos facenodes (u_nf g) poly poly_ok Harea mN mC mA N C A f _ _ _ LN LC LA out_faces Hlt HN' Hc' HA') as (_ & _ & Hpos & _ & Hfl).
    destruct (Hfl k Hk) as (EN & _ & Ho). assert (Hx : vdot k (mean (poly f)) = dd) by (apply mean_flat; [by apply poly_ne|done]).
    destruct (Ho (mean (poly f))) as (_ & EC); [intros p Hp; by rewrite Hx, (Hd p Hp)|]. rewrite vsum_map in EC.
    rewrite <- (HC f Hf). rewrite (at3_fun _ _ _ _ (proj2 (Hnc f Hf)) Hc'). rewrite EN.
    transitivity (vdot k d' * vdot (vscale (fan_area (poly f)) c') w'); [unv; ring|]. rewrite EC, <- rsum_dot, <- rsum_scale. apply rsum_ext. intros e He.
    apply edges_in in He as [He1 He2]. apply Hd in He1, He2.
    assert (U : vdot k (vsub e.1 (mean (poly f))) = 0) by (transitivity (vdot k e.1 - vdot k (mean (poly f))); [unv; ring|lra]).
    assert (U2 : vdot k (vsub e.2 (mean (poly f))) = 0) by (transitivity (vdot k e.2 - vdot k (mean (poly f))); [unv; ring|lra]).
    rewrite (flat_tri k (mean (poly f)) e Hkk U U2) at 2. generalize (vdot k (tri_vector (mean (poly f)) e)). intros t. unv. ring.
Qed.
(** C59: the volumes add up to the volume inside the outer faces. *)
Theorem C59_total o : rsum (λ v, v) cv = body_volume o (outer_sides g poly).
Proof using Hg Hnodes Hpt Harea Haligned Hclosed Hvol LN LC LA Lc Lv E.
  assert (Lcv : length cv = u_nc g). { destruct C59_geometry as (N' & C' & A' & cc' & cv' & E' & _ & _ & H & _). rewrite E in E'. by injection E' as -> -> -> -> ->. }
  set (v := λ f, rsum (λ e, tet_volume o (mean (poly f)) e.1 e.2) (edges (poly f))).
  rewrite rsum_seq_list, Lcv.
  rewrite (rsum_ext _ (λ c, rsum (λ f, if decide (f ∈ default [] (cf !! c)) then sgn (side g c f) * v f else 0) (seq 0 (u_nf g)))).
  2:{ intros c Hc. apply elem_of_seq in Hc. destruct (lookup_lt_is_Some_2 cf c) as [r Hr]; [rewrite (ok_cells _ _ Hg); lia|]. rewrite Hr. cbn [default from_option]. unfold Datatypes.id.
      destruct (lookup_lt_is_Some_2 cv c) as [V HV]; [lia|]. rewrite HV. rewrite (out_volume c r V Hr HV o). unfold body_volume, cell_sides. rewrite rsum_map. cbn [fst snd].
      apply rsum_row; [by eapply ok_nodup|]. intros f. by eapply row_lt. }
  rewrite rsum_swap. unfold body_volume, outer_sides. rewrite rsum_concat, rsum_map. apply rsum_ext. intros f Hf. apply elem_of_seq in Hf.
  destruct (lookup_lt_is_Some_2 (u_facecells g) (2 * f)) as [a Ha]; [rewrite (ok_faces _ _ Hg); lia|].
  destruct (lookup_lt_is_Some_2 (u_facecells g) (2 * f + 1)) as [b Hb]; [rewrite (ok_faces _ _ Hg); lia|].
  rewrite Ha, Hb. destruct (ok_range _ _ Hg f a b) as (Ra & Rb & Rab); [by split|].
  transitivity (rsum (λ c, (if decide (a = Z.of_nat c) then v f else 0) + (if decide (b = Z.of_nat c) then - v f else 0)) (seq 0 (u_nc g))).
  { apply rsum_ext. intros c Hc. apply elem_of_seq in Hc. destruct (lookup_lt_is_Some_2 cf c) as [r Hr]; [rewrite (ok_cells _ _ Hg); lia|]. rewrite Hr. cbn [default from_option]. unfold Datatypes.id.
    unfold side. rewrite Ha. destruct (decide (f ∈ r)) as [Hin|Hin].
    - apply (ok_inc _ _ Hg c r f Hr) in Hin as (a' & b' & [Ha' Hb'] & Hi). rewrite Ha in Ha'. rewrite Hb in Hb'. injection Ha' as <-. injection Hb' as <-.
      destruct (decide (a = Z.of_nat c)) as [->|Hna].
      + rewrite bool_decide_true by done. destruct (decide (b = Z.of_nat c)) as [->|]; [exfalso; specialize (Rab eq_refl); lia|]. cbn [sgn]. ring.
      + rewrite bool_decide_false by (intros [=]; done). destruct (decide (b = Z.of_nat c)) as [->|]; [cbn [sgn]; ring|]. by destruct Hi.
    - rewrite !decide_False; [ring| |]; intros ->; apply Hin; apply (ok_inc _ _ Hg c r f Hr); eexists _, _; split; [by split| |by split|]; auto. }
  assert (one : ∀ (x : Z) t, (-1 ≤ x < Z.of_nat (u_nc g))%Z → rsum (λ c, if decide (x = Z.of_nat c) then t else 0) (seq 0 (u_nc g)) = if decide (x = (-1)%Z) then 0 else t).
  { intros x t Hx. destruct (decide (x = (-1)%Z)) as [->|Hn].
    - apply rsum_zero. intros c _. rewrite decide_False; [done|lia].
    - rewrite (rsum_ext _ (λ c, if decide (c = Z.to_nat x) then t else 0)).
      2:{ intros c _. destruct (decide (x = Z.of_nat c)) as [->|], (decide (c = _)); try done; exfalso; lia. }
      rewrite (rsum_single (λ _, t) (Z.to_nat x)); [done|apply NoDup_seq|apply elem_of_seq; lia]. }
  rewrite rsum_plus, !one by done.
  destruct (decide (a = (-1)%Z)), (decide (b = (-1)%Z)); cbn [rsum fst snd sgn]; unfold v; ring.
Qed.
End out.
End cells.
Print Assumptions C59_geometry.
Print Assumptions C59_outward.
Print Assumptions C59_green.
Print Assumptions C59_total.
