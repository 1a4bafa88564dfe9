(** Lemmas about the geometry of polyhedra. *)
From Coq Require Import Reals Lra Psatz.
From Verif Require Import Base LoopModel LoopProof TableModel GridModel GridSpec CartGeomProof TofSpec AccProof TofProof PolyModel PolySpec PolyProof PolyProps.
Local Open Scope R_scope.
Unset Default Proof Using.

(** ** Closed surfaces *)
Definition swap {A} (e : A * A) : A * A := (e.2, e.1).
Lemma closed_sum (E : nat → nat → R) (fs : list (bool * list nat)) : (∀ a b, E b a = - E a b) → closed fs →
  rsum (λ f, sgn f.1 * rsum (λ e, E e.1 e.2) (edges f.2)) fs = 0.
Proof.
  intros HE Hc. unfold closed in Hc. set (es := concat (map (λ f, around f.1 f.2) fs)) in Hc.
  assert (H1 : rsum (λ f, sgn f.1 * rsum (λ e, E e.1 e.2) (edges f.2)) fs = rsum (λ e, E e.1 e.2) es).
  { unfold es. rewrite rsum_concat, rsum_map. apply rsum_ext. intros [[] ns] _; cbn [fst snd sgn around]; [ring|].
    rewrite rsum_map. cbn [fst snd]. rewrite <- rsum_scale. apply rsum_ext. intros e _. rewrite (HE e.1 e.2). ring. }
  assert (H2 : rsum (λ e, E e.1 e.2) es = - rsum (λ e, E e.1 e.2) es).
  { rewrite (rsum_perm _ _ _ Hc) at 1. rewrite rsum_map. cbn [fst snd]. rewrite <- rsum_opp. apply rsum_ext. intros e _. apply HE. }
  lra.
Qed.
(** A quantity of triangles that is the sum of a quantity of their sides
    vanishes. *)
Lemma closed_tri (pt : nat → vec) (F : vec → vec → vec → R) (E : vec → vec → R) (fs : list (bool * list nat)) :
  closed fs → (∀ a b, E b a = - E a b) → (∀ x a b, F x a b = E x a + E a b + E b x) →
  rsum (λ f, sgn f.1 * rsum (λ e, F (mean f.2) e.1 e.2) (edges f.2)) (map (λ f, (f.1, map pt f.2)) fs) = 0.
Proof.
  intros Hc HE HF. rewrite rsum_map. cbn [fst snd]. rewrite <- (closed_sum (λ a b, E (pt a) (pt b)) fs); [|intros; apply HE|done].
  apply rsum_ext. intros [s ns] _. cbn [fst snd]. f_equal. rewrite edges_map, rsum_map. cbn [fst snd].
  set (x := mean (map pt ns)).
  transitivity (rsum (λ e, E (pt e.1) (pt e.2) + (E x (pt e.1) + - E x (pt e.2))) (edges ns)).
  { apply rsum_ext. intros e _. rewrite HF. rewrite (HE x (pt e.2)). ring. }
  rewrite !rsum_plus, rsum_opp. pose proof (edges_telescope (λ a, E x (pt a)) ns) as HT. rewrite HT. ring.
Qed.
Ltac unv := unfold tet_volume, tet_centre, tri_vector, tri_centre, vdot, vsub, vadd, vscale, vcross; cbn [fst snd].
Section shape.
Variable pt : nat → vec.
Variable fs : list (bool * list nat).
Hypothesis Hc : closed fs.
Notation B := (map (λ f, (f.1, map pt f.2)) fs).
Notation total F := (rsum (λ f, sgn f.1 * rsum F (edges f.2)) B).

Lemma volume_any o o' : body_volume o B = body_volume o' B.
Proof using Hc.
  pose proof (closed_tri pt (λ x a b, tet_volume o x a b - tet_volume o' x a b) (λ a b, tet_volume o o' a b) fs Hc) as H.
  unfold body_volume. apply Rminus_diag_uniq. etransitivity; [|apply H].
  - unfold Rminus. rewrite <- rsum_opp, <- rsum_plus. apply rsum_ext. intros [s ps] _. cbn [fst snd].
    rewrite rsum_plus, rsum_opp. ring.
  - intros a b. unv. field.
  - intros x a b. unv. field.
Qed.
Lemma moment_any o o' : body_moment o B = body_moment o' B.
Proof using Hc.
  assert (K : ∀ (pr : vec → R), (∀ a v, pr (vscale a v) = a * pr v) → (∀ u v, pr (vadd u v) = pr u + pr v) → (∀ A (h : A → vec) l, pr (vrsum h l) = rsum (λ x, pr (h x)) l) →
    (∀ a b, tet_volume o o' b a * pr (tet_centre o o' b a) = - (tet_volume o o' a b * pr (tet_centre o o' a b))) →
    (∀ x a b, tet_volume o x a b * pr (tet_centre o x a b) - tet_volume o' x a b * pr (tet_centre o' x a b) = tet_volume o o' x a * pr (tet_centre o o' x a) + tet_volume o o' a b * pr (tet_centre o o' a b) + tet_volume o o' b x * pr (tet_centre o o' b x)) →
    pr (body_moment o B) = pr (body_moment o' B)).
  { intros pr P1 P2 P3 P4 P5. apply Rminus_diag_uniq. rewrite <- (closed_tri pt (λ x a b, tet_volume o x a b * pr (tet_centre o x a b) - tet_volume o' x a b * pr (tet_centre o' x a b)) (λ a b, tet_volume o o' a b * pr (tet_centre o o' a b)) fs Hc P4 P5).
    unfold body_moment. rewrite !vsum_map, !P3. unfold Rminus. rewrite <- rsum_opp, <- rsum_plus. apply rsum_ext. intros [s ps] _. cbn [fst snd].
    rewrite !P1, !vsum_map, !P3. rewrite rsum_plus, rsum_opp.
    rewrite (rsum_ext (λ e, pr (vscale _ _)) (λ e, tet_volume o (mean ps) e.1 e.2 * pr (tet_centre o (mean ps) e.1 e.2))) by (intros; apply P1).
    rewrite (rsum_ext (λ e, pr (vscale _ _)) (λ e, tet_volume o' (mean ps) e.1 e.2 * pr (tet_centre o' (mean ps) e.1 e.2))) by (intros; apply P1). ring. }
  apply vec_eq.
  - apply (K (λ v, v.1.1)); try done; intros; unv; field.
  - apply (K (λ v, v.1.2)); try done; intros; unv; field.
  - apply (K (λ v, v.2)); try done; intros; unv; field.
Qed.
Lemma vectors_zero : vsum (map (λ f, vscale (sgn f.1) (area_vector f.2)) B) = (0, 0, 0).
Proof using Hc.
  rewrite vsum_map. apply vec_eq; cbn [vrsum fst snd].
  - rewrite <- (closed_tri pt (λ x a b, (tri_vector x (a, b)).1.1) (λ a b, 1 / 2 * (vcross a b).1.1) fs Hc).
    + apply rsum_ext. intros [s ps] _. cbn [fst snd vscale]. rewrite <- (tri_vectors (mean ps)). cbn [vrsum fst snd]. by f_equal.
    + intros; unv; field.
    + intros; unv; field.
  - rewrite <- (closed_tri pt (λ x a b, (tri_vector x (a, b)).1.2) (λ a b, 1 / 2 * (vcross a b).1.2) fs Hc).
    + apply rsum_ext. intros [s ps] _. cbn [fst snd vscale]. rewrite <- (tri_vectors (mean ps)). cbn [vrsum fst snd]. by f_equal.
    + intros; unv; field.
    + intros; unv; field.
  - rewrite <- (closed_tri pt (λ x a b, (tri_vector x (a, b)).2) (λ a b, 1 / 2 * (vcross a b).2) fs Hc).
    + apply rsum_ext. intros [s ps] _. cbn [fst snd vscale]. rewrite <- (tri_vectors (mean ps)). cbn [vrsum fst snd]. by f_equal.
    + intros; unv; field.
    + intros; unv; field.
Qed.
(** Integrals along a side from [a] to [b]: of x*x dz / 2 and of x*y dz. *)
Definition iq (x z : vec → R) (a b : vec) : R := (z b - z a) * (x a * x a + x a * x b + x b * x b) / 6.
Definition ip (x y z : vec → R) (a b : vec) : R := (z b - z a) * (2 * x a * y a + x a * y b + x b * y a + 2 * x b * y b) / 6.
Definition px (v : vec) : R := v.1.1.
Definition py (v : vec) : R := v.1.2.
Definition pz (v : vec) : R := v.2.
Definition green_edge (d w a b : vec) : R :=
  (* first index: component of the normal; second: of the position *)
  px d * (py w * iq py pz a b - pz w * iq pz py a b) + py d * (pz w * iq pz px a b - px w * iq px pz a b) +
  pz d * (px w * iq px py a b - py w * iq py px a b) +
  px d * px w * (ip px py pz a b - ip px pz py a b) / 3 + py d * py w * (ip py pz px a b - ip py px pz a b) / 3 +
  pz d * pz w * (ip pz px py a b - ip pz py px a b) / 3.
Lemma green_tri d w x a b : vdot (tri_vector x (a, b)) d * vdot (tri_centre x (a, b)) w - vdot d w * tet_volume (0, 0, 0) x a b =
  green_edge d w x a + green_edge d w a b + green_edge d w b x.
Proof. clear. unfold green_edge, iq, ip, px, py, pz. unv. destruct d as [[]], w as [[]], x as [[]], a as [[]], b as [[]]. cbn [fst snd]. field. Qed.
Lemma green d w : rsum (λ f, sgn f.1 * rsum (λ e, vdot (tri_vector (mean f.2) e) d * vdot (tri_centre (mean f.2) e) w) (edges f.2)) B = vdot d w * body_volume (0, 0, 0) B.
Proof using Hc.
  apply Rminus_diag_uniq. etransitivity; [|apply (closed_tri pt (λ x a b, vdot (tri_vector x (a, b)) d * vdot (tri_centre x (a, b)) w - vdot d w * tet_volume (0, 0, 0) x a b) (green_edge d w) fs Hc)].
  - unfold body_volume. rewrite <- rsum_scale. unfold Rminus. rewrite <- rsum_opp, <- rsum_plus. apply rsum_ext. intros [s ps] _. cbn [fst snd].
    rewrite rsum_plus, rsum_opp, rsum_scale.
    change (rsum (λ x : vec * vec, vdot (tri_vector (mean ps) (x.1, x.2)) d * vdot (tri_centre (mean ps) (x.1, x.2)) w) (edges ps)) with (rsum (λ e, vdot (tri_vector (mean ps) e) d * vdot (tri_centre (mean ps) e) w) (edges ps)). ring.
  - intros a b. unfold green_edge, iq, ip. field.
  - intros x a b. apply green_tri.
Qed.
(** The same with one normal and one centre for each face. *)
Lemma green_faces o d w (N C : bool * list vec → vec) :
  (∀ f, f ∈ B → N f = area_vector f.2) →
  (∀ f, f ∈ B → ∀ d w, vdot (N f) d * vdot (C f) w = rsum (λ e, vdot (tri_vector (mean f.2) e) d * vdot (tri_centre (mean f.2) e) w) (edges f.2)) →
  rsum (λ f, sgn f.1 * (vdot (N f) d * vdot (vsub (C f) o) w)) B = vdot d w * body_volume (0, 0, 0) B.
Proof using Hc.
  intros HN HC. rewrite <- green.
  transitivity (rsum (λ f, sgn f.1 * (vdot (N f) d * vdot (C f) w) + - vdot o w * (sgn f.1 * vdot (N f) d)) B).
  { apply rsum_ext. intros f _. unv. ring. }
  rewrite rsum_plus, rsum_scale.
  assert (rsum (λ f, sgn f.1 * vdot (N f) d) B = 0) as ->.
  { pose proof vectors_zero as Hz. rewrite vsum_map in Hz.
    transitivity (rsum (λ f, vdot (vscale (sgn f.1) (area_vector f.2)) d) B).
    - apply rsum_ext. intros f Hf. rewrite HN by done. unv. ring.
    - rewrite rsum_dot, Hz. unv. ring. }
  rewrite Rmult_0_r, Rplus_0_r. apply rsum_ext. intros f Hf. by rewrite HC.
Qed.
End shape.

(** ** The loop over the faces of a cell *)
(** What one triangle adds. *)
Definition tet_step (sg : R) (o x : vec) (s : arr3 * R * arr3) (p : vec) : arr3 * R * arr3 :=
  let '(u, V, M) := s in
  let v := vsub p x in let t := sg * (vdot (vcross u v) (vsub x o) / 6) in
  (v, V + t, vadd M (vscale (t * 3 / 4) (vsub (vadd x (vscale (1 / 3) (vadd u v))) o))).
Lemma tet_steps sg o x ps : ∀ z V M, foldl (tet_step sg o x) (vsub z x, V, M) ps =
  (vsub (default z (last ps)) x, V + sg * rsum (λ e, tet_volume o x e.1 e.2) (cedges z ps),
   vadd M (vscale sg (vrsum (λ e, vscale (tet_volume o x e.1 e.2) (vsub (tet_centre o x e.1 e.2) o)) (cedges z ps)))).
Proof.
  induction ps as [|p ps IH]; intros z V M.
  - unfold cedges, vrsum. cbn [foldl zip zip_with rsum last]. apply f_equal2; [apply f_equal2; [done|ring]|vring].
  - cbn [foldl]. unfold tet_step at 2. rewrite IH. change (cedges z (p :: ps)) with ((z, p) :: cedges p ps).
    rewrite !vrsum_cons. cbn [rsum fst snd].
    assert (default p (last ps) = default z (last (p :: ps))) as ->. { rewrite last_cons. by destruct (last ps). }
    assert (ET : vdot (vcross (vsub z x) (vsub p x)) (vsub x o) / 6 = tet_volume o x z p) by done. rewrite ET. apply f_equal2; [apply f_equal2; [done|]|].
    + ring.
    + generalize (tet_volume o x z p). intros t. generalize (vrsum (λ e, vscale (tet_volume o x e.1 e.2) (vsub (tet_centre o x e.1 e.2) o)) (cedges p ps)). intros W.
      unfold tet_centre. vring.
Qed.
