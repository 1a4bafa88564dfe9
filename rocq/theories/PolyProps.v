(** C58: faces of a grid: normals, areas and centroids. *)
From Coq Require Import Reals Lra Psatz.
From Verif Require Import Base LoopModel LoopProof TableModel GridModel GridSpec CartGeomProof TofSpec AccProof TofProof PolyModel PolySpec PolyProof.
Local Open Scope R_scope.
Unset Default Proof Using.

(** ** Lengths *)
Lemma vdot_nonneg v : 0 <= vdot v v.
Proof. unfold vdot. nra. Qed.
Lemma vlen_nonneg v : 0 <= vlen v.
Proof. apply sqrt_pos. Qed.
Lemma vlen_sq v : vlen v * vlen v = vdot v v.
Proof. apply sqrt_sqrt, vdot_nonneg. Qed.
Lemma cauchy u v : vdot u v <= vlen u * vlen v.
Proof.
  destruct (Rle_lt_dec (vdot u v) 0) as [H|H].
  - pose proof (Rmult_le_pos _ _ (vlen_nonneg u) (vlen_nonneg v)). lra.
  - apply Rsqr_incr_0_var; [|apply Rmult_le_pos; apply vlen_nonneg]. unfold Rsqr.
    replace (vlen u * vlen v * (vlen u * vlen v)) with (vdot u u * vdot v v) by (rewrite <- !vlen_sq; ring).
    pose proof (vdot_nonneg (vcross u v)) as Hc.
    assert (vdot (vcross u v) (vcross u v) = vdot u u * vdot v v - vdot u v * vdot u v) by (unfold vdot, vcross; cbn [fst snd]; ring). lra.
Qed.
Lemma vlen_vrsum {A} (h : A → vec) l : vlen (vrsum h l) <= rsum (λ x, vlen (h x)) l.
Proof.
  set (s := vrsum h l). assert (Hs : vdot s s <= rsum (λ x, vlen (h x)) l * vlen s).
  { assert (vdot s s = rsum (λ x, vdot (h x) s) l) as -> by (by rewrite rsum_dot). rewrite Rmult_comm, <- rsum_scale.
    apply rsum_le. intros x _. rewrite Rmult_comm. apply cauchy. }
  rewrite <- vlen_sq in Hs. pose proof (vlen_nonneg s) as H0. destruct (Req_dec (vlen s) 0) as [E|E].
  - rewrite E. apply rsum_nonneg. intros. apply vlen_nonneg.
  - apply (Rmult_le_reg_r (vlen s)); lra.
Qed.

(** ** Triangles *)
Lemma tri_vectors o ps : vrsum (tri_vector o) (edges ps) = area_vector ps.
Proof.
  unfold area_vector. rewrite vsum_map, <- vrsum_scale.
  assert (vrsum (tri_vector o) (edges ps) = vadd (vrsum (λ e, vscale (1 / 2) (vcross e.1 e.2)) (edges ps))
    (vadd (vrsum (λ e, vscale (1 / 2) (vcross o e.1)) (edges ps)) (vscale (-1) (vrsum (λ e, vscale (1 / 2) (vcross o e.2)) (edges ps))))) as ->.
  { rewrite <- vrsum_scale, <- !vrsum_plus. apply vrsum_ext. intros e _. unfold tri_vector. vring. }
  assert (vrsum (λ e : vec * vec, vscale (1 / 2) (vcross o e.1)) (edges ps) = vrsum (λ e, vscale (1 / 2) (vcross o e.2)) (edges ps)) as ->.
  { unfold vrsum. f_equal; [f_equal|].
    - apply (edges_telescope (λ p, (vscale (1 / 2) (vcross o p)).1.1)).
    - apply (edges_telescope (λ p, (vscale (1 / 2) (vcross o p)).1.2)).
    - apply (edges_telescope (λ p, (vscale (1 / 2) (vcross o p)).2)). }
  vring.
Qed.
Lemma triple a b c k : vadd (vscale (vdot k (vcross a b)) c) (vadd (vscale (vdot k (vcross c a)) b) (vscale (vdot k (vcross b c)) a)) =
  vadd (vscale (vdot k c) (vcross a b)) (vadd (vscale (vdot k a) (vcross b c)) (vscale (vdot k b) (vcross c a))).
Proof. unfold vdot. vring. Qed.
(** The triangle at [x] in terms of those at [o] in the same plane. *)
Lemma tri_parts k o x e : vdot k (vsub e.1 o) = 0 → vdot k (vsub e.2 o) = 0 → vdot k (vsub x o) = 0 →
  vscale (vdot k (tri_vector x e)) (tri_centre x e) = vadd (vscale (vdot k (tri_vector o e)) (tri_centre o e))
    (vsub (vscale (vdot k (tri_vector o (x, e.1))) (tri_centre o (x, e.1))) (vscale (vdot k (tri_vector o (x, e.2))) (tri_centre o (x, e.2)))).
Proof.
  intros U V W. pose proof (triple (vsub e.1 o) (vsub e.2 o) (vsub x o) k) as T. rewrite U, V, W in T. destruct e as [p q]. unfold tri_vector, tri_centre. cbn [fst snd] in *.
  set (al := vdot k (vcross (vsub p o) (vsub q o))) in *. set (be := vdot k (vcross (vsub x o) (vsub p o))) in *. set (ga := vdot k (vcross (vsub q o) (vsub x o))) in *.
  assert (vdot k (vscale (1 / 2) (vcross (vsub p x) (vsub q x))) = 1 / 2 * (al + be + ga)) as -> by (unfold al, be, ga, vdot, vsub, vadd, vscale, vcross; cbn [fst snd]; ring).
  assert (vdot k (vscale (1 / 2) (vcross (vsub x o) (vsub q o))) = - 1 / 2 * ga) as -> by (unfold ga, vdot, vsub, vadd, vscale, vcross; cbn [fst snd]; field).
  assert (∀ u, vdot k (vscale (1 / 2) u) = 1 / 2 * vdot k u) as Hs by (intros; unfold vdot, vscale; cbn [fst snd]; ring).
  rewrite !Hs. fold al be. clearbody al be ga. clear - T. destruct o as [[o1 o2] o3], x as [[x1 x2] x3], p as [[p1 p2] p3], q as [[q1 q2] q3].
  unfold vsub, vadd, vscale, vcross in *. cbn [fst snd] in *. injection T as T1 T2 T3. apply vec_eq; cbn [fst snd]; [clear T2 T3|clear T1 T3|clear T1 T2]; lra.
Qed.
Lemma mean_le d m ps : ps ≠ [] → (∀ p, p ∈ ps → vdot p d <= m) → vdot (mean ps) d <= m.
Proof.
  intros Hne H. unfold mean. assert (0 < INR (length ps)) as Hn by (apply lt_0_INR; destruct ps; [done|cbn; lia]).
  replace (vdot (vscale (/ INR (length ps)) (vsum ps)) d) with (/ INR (length ps) * vdot (vsum ps) d) by (unfold vdot, vscale; cbn [fst snd]; ring).
  rewrite vsum_id, <- rsum_dot. apply (Rmult_le_reg_l (INR (length ps))); [done|]. rewrite <- Rmult_assoc, Rinv_r, Rmult_1_l by lra.
  clear Hne Hn. induction ps as [|p ps IH]; [cbn; lra|]. cbn [rsum length]. rewrite S_INR. pose proof (H p (elem_of_list_here _ _)).
  assert (rsum (λ x, vdot x d) ps <= INR (length ps) * m) by (apply IH; intros; apply H; by right). lra.
Qed.
Lemma vdot_comm u v : vdot u v = vdot v u.
Proof. unfold vdot. ring. Qed.
Lemma mean_flat n d ps : ps ≠ [] → (∀ p, p ∈ ps → vdot n p = d) → vdot n (mean ps) = d.
Proof.
  intros Hne H. apply Rle_antisym.
  - rewrite vdot_comm. apply mean_le; [done|]. intros p Hp. rewrite vdot_comm, H by done. lra.
  - assert (vdot (mean ps) (vscale (-1) n) <= - d).
    { apply mean_le; [done|]. intros p Hp. rewrite <- (H p Hp). unfold vdot, vscale. cbn [fst snd]. lra. }
    assert (vdot (mean ps) (vscale (-1) n) = - vdot n (mean ps)) by (unfold vdot, vscale; cbn [fst snd]; ring). lra.
Qed.

(** ** The faces of a grid *)
Section faces.
Variable coords : list R.
Variables nodepos facenodes : list nat.
Variable nf : nat.
Variable poly : nat → list vec.
Hypothesis Hpoly : ∀ f, (f < nf)%nat → polygon coords nodepos facenodes f (poly f).
Hypothesis Harea : ∀ f, (f < nf)%nat → 0 < fan_area (poly f).

(** C58: normal, centroid and area of each face. *)
Theorem C58_faces N C A : length N = (3 * nf)%nat → length C = (3 * nf)%nat → length A = nf →
  ∃ N' C' A', face_geometry3 coords nodepos facenodes nf (N, C, A) = Some (N', C', A') ∧
    length N' = (3 * nf)%nat ∧ length C' = (3 * nf)%nat ∧ length A' = nf ∧
    ∀ f, (f < nf)%nat → at3 N' f (area_vector (poly f)) ∧ A' !! f = Some (fan_area (poly f)) ∧
      ∃ c, at3 C' f c ∧ vscale (fan_area (poly f)) c =
        vsum (map (λ e, vscale (vlen (tri_vector (mean (poly f)) e)) (tri_centre (mean (poly f)) e)) (edges (poly f))).
Proof using Hpoly Harea.
  intros LN LC LA. unfold face_geometry3.
  destruct (for_loop_inv (λ k s, length s.1.1 = (3 * nf)%nat ∧ length s.1.2 = (3 * nf)%nat ∧ length s.2 = nf ∧
    ∀ f, (f < k)%nat → at3 s.1.1 f (area_vector (poly f)) ∧ s.2 !! f = Some (fan_area (poly f)) ∧
      at3 s.1.2 f (vscale (/ fan_area (poly f)) (vrsum (λ e, vscale (vlen (tri_vector (mean (poly f)) e)) (tri_centre (mean (poly f)) e)) (edges (poly f)))))
    nf 0 (face_body coords nodepos facenodes) (N, C, A)) as ([[N' C'] A'] & E & H1 & H2 & H3 & H4).
  - do 3 (split; [done|]). intros; lia.
  - intros f [[N1 C1] A1] Hf (L1 & L2 & L3 & Hd). cbn [fst snd] in *. unfold face_body.
    assert (Hff : (f < nf)%nat) by lia. pose proof (Harea f Hff) as Hp. assert (poly f ≠ []) as Hne.
    { intros Hn. rewrite Hn in Hp. unfold fan_area, edges in Hp. cbn in Hp. lra. }
    destruct (face_start_ok coords nodepos facenodes f (poly f) (Hpoly f Hff) Hne) as (b & e & z & ns & Hcor & HF & Hl & Hs & Hz & Est).
    rewrite Est. cbn [mbind option_bind]. rewrite Hl.
    destruct (face_loop_ok coords facenodes b ns (poly f) z Hs HF Hz) as (u & EL). rewrite EL. cbn [mbind option_bind].
    rewrite tri_vectors. replace (each3 (λ _ t, 1 / 2 * t) zero3 (vscale 2 (area_vector (poly f)))) with (area_vector (poly f)) by (unfold each3; vring).
    destruct (write3_ok N1 f (area_vector (poly f)) nf L1 Hff) as (N2 & EN & LN2 & HN2 & HN3). rewrite EN. cbn [mbind option_bind].
    rewrite div3_ok by lra. cbn [mbind option_bind].
    match goal with |- context [write3 C1 f ?c] => destruct (write3_ok C1 f c nf L2 Hff) as (C2 & EC & LC2 & HC2 & HC3) end. rewrite EC. cbn [mbind option_bind].
    rewrite upd_Some by lia. cbn [mbind option_bind]. eexists. split; [done|]. cbn [fst snd]. do 2 (split; [done|]). split; [by rewrite insert_length|].
    intros f' Hf'. destruct (decide (f' = f)) as [->|Hn].
    + split; [done|]. split; [apply list_lookup_insert; lia|]. done.
    + destruct (Hd f') as (G1 & G2 & G3); [lia|]. split; [by apply HN3|]. split; [|by apply HC3]. by rewrite list_lookup_insert_ne.
  - exists N', C', A'. do 4 (split; [done|]). intros f Hf. destruct (H4 f Hf) as (G1 & G2 & G3). do 2 (split; [done|]). eexists. split; [exact G3|].
    cbn [fst snd]. pose proof (Harea f Hf). rewrite vsum_map. vring; lra.
Qed.

(** C58: what these values are.  No face is smaller than its normal; the centroid
    is in every half space that holds the corners; a flat face that is star
    shaped around the mean of its corners has the area of its normal, and its
    centroid is the centre of the area, whatever point of the plane the
    triangles start from. *)
Theorem C58_values N C A N' C' A' f n c a : length N = (3 * nf)%nat → length C = (3 * nf)%nat → length A = nf →
  face_geometry3 coords nodepos facenodes nf (N, C, A) = Some (N', C', A') → (f < nf)%nat →
  at3 N' f n → at3 C' f c → A' !! f = Some a →
  n = area_vector (poly f) ∧ vlen n <= a ∧ 0 < a ∧
  (∀ d m, (∀ p, p ∈ poly f → vdot p d <= m) → vdot c d <= m) ∧
  (∀ k, flat_star k (poly f) → n = vscale a k ∧ vlen n = a ∧
     ∀ o, (∀ p, p ∈ poly f → vdot k p = vdot k o) →
       a = rsum (λ e, vdot k (tri_vector o e)) (edges (poly f)) ∧
       vscale a c = vsum (map (λ e, vscale (vdot k (tri_vector o e)) (tri_centre o e)) (edges (poly f)))).
Proof using Hpoly Harea.
  intros LN LC LA E Hf Hn Hc Ha. destruct (C58_faces N C A LN LC LA) as (N2 & C2 & A2 & E2 & _ & _ & _ & HH). rewrite E in E2. injection E2 as <- <- <-.
  destruct (HH f Hf) as (G1 & G2 & c' & G3 & G4). rewrite (at3_fun _ _ _ _ Hn G1). rewrite <- (at3_fun _ _ _ _ Hc G3) in G4. rewrite G2 in Ha. injection Ha as <-.
  clear HH G1 G2 G3 E Hn Hc LN LC LA. pose proof (Harea f Hf) as Hp. set (ps := poly f) in *. set (x := mean ps) in *.
  assert (ps ≠ []) as Hne. { intros Hn. rewrite Hn in Hp. unfold fan_area, edges in Hp. cbn in Hp. lra. }
  rewrite vsum_map in G4. split; [done|]. split.
  { rewrite <- (tri_vectors x). apply vlen_vrsum. }
  split; [done|]. split.
  - intros d m Hd. assert (Hx : vdot x d <= m) by (by apply mean_le).
    assert (Hs : fan_area ps * vdot c d <= fan_area ps * m).
    { replace (fan_area ps * vdot c d) with (vdot (vscale (fan_area ps) c) d) by (unfold vdot, vscale; cbn [fst snd]; ring). rewrite G4, <- rsum_dot.
      unfold fan_area. rewrite Rmult_comm, <- rsum_scale. apply rsum_le. intros e He. apply edges_in in He as [He1 He2].
      pose proof (Hd _ He1). pose proof (Hd _ He2). pose proof (vlen_nonneg (tri_vector x e)).
      assert (vdot (tri_centre x e) d <= m). { unfold tri_centre. replace (vdot (vscale (1 / 3) (vadd x (vadd e.1 e.2))) d) with (1 / 3 * (vdot x d + (vdot e.1 d + vdot e.2 d))) by (unfold vdot, vscale, vadd; cbn [fst snd]; ring). lra. }
      replace (vdot (vscale (vlen (tri_vector x e)) (tri_centre x e)) d) with (vlen (tri_vector x e) * vdot (tri_centre x e) d) by (unfold vdot, vscale; cbn [fst snd]; ring).
      fold x. rewrite (Rmult_comm m). by apply Rmult_le_compat_l. }
    by apply Rmult_le_reg_l in Hs.
  - intros k (Hk & [d Hd] & Hstar). fold x in Hstar. assert (Hx : vdot k x = d) by (by apply mean_flat).
    assert (T : ∀ e, e ∈ edges ps → tri_vector x e = vscale (vdot k (tri_vector x e)) k).
    { intros e He. apply edges_in in He as [He1 He2]. apply Hd in He1, He2.
      assert (U : vdot k (vsub e.1 x) = 0) by (transitivity (vdot k e.1 - vdot k x); [unfold vdot, vsub, vadd, vscale; cbn [fst snd]; ring|lra]).
      assert (V : vdot k (vsub e.2 x) = 0) by (transitivity (vdot k e.2 - vdot k x); [unfold vdot, vsub, vadd, vscale; cbn [fst snd]; ring|lra]).
      unfold tri_vector. set (u := vsub e.1 x) in *. set (v := vsub e.2 x) in *. clearbody u v.
      assert (vscale (vdot k k) (vscale (1 / 2) (vcross u v)) = vadd (vscale (vdot k (vscale (1 / 2) (vcross u v))) k)
         (vscale (1 / 2) (vcross k (vsub (vscale (vdot k u) v) (vscale (vdot k v) u))))) as EE by (unfold vdot; vring).
      rewrite Hk, U, V in EE. transitivity (vscale 1 (vscale (1 / 2) (vcross u v))); [vring|]. rewrite EE. vring. }
    assert (TL : ∀ e, e ∈ edges ps → vlen (tri_vector x e) = vdot k (tri_vector x e)).
    { intros e He. pose proof (Hstar e He). unfold vlen at 1. rewrite (T e He) at 1 2.
      replace (vdot (vscale (vdot k (tri_vector x e)) k) (vscale (vdot k (tri_vector x e)) k)) with (Rsqr (vdot k (tri_vector x e)) * vdot k k) by (unfold Rsqr, vdot, vscale; cbn [fst snd]; ring).
      rewrite Hk, Rmult_1_r. by apply sqrt_Rsqr. }
    assert (FA : fan_area ps = rsum (λ e, vdot k (tri_vector x e)) (edges ps)) by (unfold fan_area; by apply rsum_ext).
    assert (EA : area_vector ps = vscale (fan_area ps) k).
    { rewrite <- (tri_vectors x), FA. rewrite (vrsum_ext _ _ _ T). unfold vrsum, vscale. cbn [fst snd].
      rewrite (Rmult_comm _ k.1.1), (Rmult_comm _ k.1.2), (Rmult_comm _ k.2), <- !rsum_scale. f_equal; [f_equal|]; apply rsum_ext; intros e _; ring. }
    split; [done|]. split.
    { rewrite EA. unfold vlen. replace (vdot (vscale (fan_area ps) k) (vscale (fan_area ps) k)) with (Rsqr (fan_area ps) * vdot k k) by (unfold Rsqr, vdot, vscale; cbn [fst snd]; ring).
      rewrite Hk, Rmult_1_r. apply sqrt_Rsqr. lra. }
    intros o Ho. assert (Hod : vdot k o = d). { destruct ps as [|p r]; [done|]. rewrite <- (Ho p) by left. apply Hd. left. }
    split.
    { transitivity (vdot k (vscale (fan_area ps) k)); [transitivity (fan_area ps * vdot k k); [rewrite Hk; ring|unfold vdot, vscale; cbn [fst snd]; ring]|].
      rewrite <- EA, <- (tri_vectors o), vdot_comm, <- rsum_dot. apply rsum_ext. intros e _. apply vdot_comm. }
    rewrite vsum_map, G4.
    transitivity (vrsum (λ e, vadd (vscale (vdot k (tri_vector o e)) (tri_centre o e)) (vsub (vscale (vdot k (tri_vector o (x, e.1))) (tri_centre o (x, e.1))) (vscale (vdot k (tri_vector o (x, e.2))) (tri_centre o (x, e.2))))) (edges ps)).
    { apply vrsum_ext. intros e He. rewrite (TL e He). apply edges_in in He as [He1 He2]. apply Hd in He1, He2.
      assert (U : vdot k (vsub e.1 o) = 0) by (transitivity (vdot k e.1 - vdot k o); [unfold vdot, vsub, vadd, vscale; cbn [fst snd]; ring|lra]).
      assert (V : vdot k (vsub e.2 o) = 0) by (transitivity (vdot k e.2 - vdot k o); [unfold vdot, vsub, vadd, vscale; cbn [fst snd]; ring|lra]).
      assert (W : vdot k (vsub x o) = 0) by (transitivity (vdot k x - vdot k o); [unfold vdot, vsub, vadd, vscale; cbn [fst snd]; ring|lra]).
      by apply tri_parts. }
    rewrite vrsum_plus. unfold vsub at 1. rewrite vrsum_plus, vrsum_scale.
    assert (vrsum (λ e : vec * vec, vscale (vdot k (tri_vector o (x, e.1))) (tri_centre o (x, e.1))) (edges ps) = vrsum (λ e, vscale (vdot k (tri_vector o (x, e.2))) (tri_centre o (x, e.2))) (edges ps)) as ->.
    { unfold vrsum. f_equal; [f_equal|].
      - apply (edges_telescope (λ p, (vscale (vdot k (tri_vector o (x, p))) (tri_centre o (x, p))).1.1)).
      - apply (edges_telescope (λ p, (vscale (vdot k (tri_vector o (x, p))) (tri_centre o (x, p))).1.2)).
      - apply (edges_telescope (λ p, (vscale (vdot k (tri_vector o (x, p))) (tri_centre o (x, p))).2)). }
    vring.
Qed.
End faces.
Print Assumptions C58_faces.
Print Assumptions C58_values.
