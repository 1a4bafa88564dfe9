(** Lemmas about the geometry of polygons: the loops compute sums over sides. *)
From Coq Require Import Reals Lra Psatz.
From Verif Require Import Base LoopModel LoopProof TableModel GridModel GridSpec CartGeomProof TofSpec AccProof TofProof PolyModel PolySpec.
Local Open Scope R_scope.
Unset Default Proof Using.

(** ** Vectors *)
Lemma vec_eq (u v : vec) : u.1.1 = v.1.1 → u.1.2 = v.1.2 → u.2 = v.2 → u = v.
Proof. destruct u as [[]], v as [[]]. simpl. congruence. Qed.
Ltac vring := apply vec_eq; unfold vsub, vadd, vscale, vcross; cbn [fst snd]; first [ring | field | idtac].
Definition vrsum {A} (h : A → vec) (l : list A) : vec :=
  (rsum (λ x, (h x).1.1) l, rsum (λ x, (h x).1.2) l, rsum (λ x, (h x).2) l).
Lemma vsum_map {A} (h : A → vec) l : vsum (map h l) = vrsum h l.
Proof. induction l as [|a l IH]; [done|]. change (vsum (map h (a :: l))) with (vadd (h a) (vsum (map h l))). by rewrite IH. Qed.
Lemma vsum_id l : vsum l = vrsum (λ x, x) l.
Proof. rewrite <- vsum_map. by rewrite map_id. Qed.
Lemma vrsum_perm {A} (h : A → vec) l m : l ≡ₚ m → vrsum h l = vrsum h m.
Proof. intros H. unfold vrsum. by rewrite !(rsum_perm _ _ _ H). Qed.
Lemma vrsum_ext {A} (h k : A → vec) l : (∀ x, x ∈ l → h x = k x) → vrsum h l = vrsum k l.
Proof. intros H. unfold vrsum. f_equal; [f_equal|]; apply rsum_ext; intros x Hx; by rewrite H. Qed.
Lemma rsum_dot {A} (h : A → vec) d l : rsum (λ x, vdot (h x) d) l = vdot (vrsum h l) d.
Proof. induction l as [|a l IH]; cbn; [unfold vdot; cbn; ring|]. rewrite IH. unfold vdot. cbn. ring. Qed.
Lemma vrsum_scale {A} a (h : A → vec) l : vrsum (λ x, vscale a (h x)) l = vscale a (vrsum h l).
Proof. unfold vrsum, vscale. cbn. by rewrite !rsum_scale. Qed.
Lemma vrsum_plus {A} (h k : A → vec) l : vrsum (λ x, vadd (h x) (k x)) l = vadd (vrsum h l) (vrsum k l).
Proof. unfold vrsum, vadd. cbn. by rewrite !rsum_plus. Qed.
Lemma vadd_0_l v : vadd (0, 0, 0) v = v.
Proof. vring. Qed.
Lemma vadd_0_r v : vadd v (0, 0, 0) = v.
Proof. vring. Qed.
Lemma vadd_assoc u v w : vadd u (vadd v w) = vadd (vadd u v) w.
Proof. vring. Qed.
Lemma vrsum_cons {A} (h : A → vec) a l : vrsum h (a :: l) = vadd (h a) (vrsum h l).
Proof. done. Qed.

(** ** Arrays of vectors *)
Lemma read3_at a n v : read3 a n = Some v ↔ at3 a n v.
Proof.
  unfold read3, at3. cbn [slice]. replace (S (3 * n)) with (3 * n + 1)%nat by lia.
  replace (S (3 * n + 1)) with (3 * n + 2)%nat by lia. destruct v as [[x y] z]. cbn [fst snd].
  destruct (a !! (3 * n)%nat); cbn [mbind option_bind]; [|by split]. destruct (a !! (3 * n + 1)%nat); cbn [mbind option_bind]; [|by split].
  destruct (a !! (3 * n + 2)%nat); cbn [mbind option_bind]; [|by split]. split; intros H; by simplify_eq.
Qed.
Lemma write3_ok a n v N : length a = (3 * N)%nat → (n < N)%nat →
  ∃ a', write3 a n v = Some a' ∧ length a' = (3 * N)%nat ∧ at3 a' n v ∧ ∀ m w, m ≠ n → at3 a m w → at3 a' m w.
Proof.
  intros Hl Hn. unfold write3. rewrite upd_Some by lia. cbn [mbind option_bind]. rewrite upd_Some by (rewrite insert_length; lia).
  cbn [mbind option_bind]. rewrite upd_Some by (rewrite !insert_length; lia). eexists. split; [done|].
  split; [by rewrite !insert_length|]. split.
  - apply read3_at. unfold read3.
    assert (∀ (l : list R) i j x, i ≠ j → <[i:=x]> l !! j = l !! j) as R1 by (intros; by apply list_lookup_insert_ne).
    rewrite (R1 _ (3 * n + 2) (3 * n))%nat by lia. rewrite (R1 _ (3 * n + 1) (3 * n))%nat by lia. rewrite (R1 _ (3 * n + 2) (3 * n + 1))%nat by lia.
    rewrite !list_lookup_insert by (rewrite ?insert_length; lia). cbn [mbind option_bind]. by destruct v as [[]].
  - intros m w Hm. rewrite <- !read3_at. unfold read3. by rewrite !list_lookup_insert_ne by lia.
Qed.
Lemma read2_at a n v : read2 a n = Some v ↔ at2 a n v.
Proof.
  unfold read2, at2. cbn [slice]. replace (S (2 * n)) with (2 * n + 1)%nat by lia. destruct v as [x y]. cbn [fst snd].
  destruct (a !! (2 * n)%nat); cbn [mbind option_bind]; [|by split]. destruct (a !! (2 * n + 1)%nat); cbn [mbind option_bind]; [|by split]. split; intros H; by simplify_eq.
Qed.
Lemma write2_ok a n v N : length a = (2 * N)%nat → (n < N)%nat →
  ∃ a', write2 a n v = Some a' ∧ length a' = (2 * N)%nat ∧ at2 a' n v ∧ ∀ m w, m ≠ n → at2 a m w → at2 a' m w.
Proof.
  intros Hl Hn. unfold write2. rewrite upd_Some by lia. cbn [mbind option_bind]. rewrite upd_Some by (rewrite insert_length; lia).
  eexists. split; [done|]. split; [by rewrite !insert_length|]. split.
  - apply read2_at. unfold read2. rewrite (list_lookup_insert_ne _ (2 * n + 1) (2 * n))%nat by lia.
    rewrite !list_lookup_insert by (rewrite ?insert_length; lia). cbn [mbind option_bind]. by destruct v.
  - intros m w Hm. rewrite <- !read2_at. unfold read2. by rewrite !list_lookup_insert_ne by lia.
Qed.

(** ** Sides *)
(** The sides in the order of the loops, which start with the last corner. *)
Definition cedges {A} (z : A) (ps : list A) : list (A * A) := zip (z :: ps) ps.
Lemma zip_snoc {A B} (l : list A) (m : list B) a b : length l = length m → zip (l ++ [a]) (m ++ [b]) = zip l m ++ [(a, b)].
Proof. intros H. by rewrite zip_with_app. Qed.
Lemma zip_cut {A B} (l : list A) (m : list B) a : length l = length m → zip (l ++ [a]) m = zip l m.
Proof.
  revert m. induction l as [|x l IH]; intros [|y m] H; try done. cbn. f_equal. apply IH. by injection H.
Qed.
Lemma cedges_perm {A} (ps : list A) z : last ps = Some z → cedges z ps ≡ₚ edges ps.
Proof.
  intros Hz. apply last_Some in Hz as [l ->]. unfold cedges, edges. destruct l as [|p r]; [done|]. cbn [app].
  change (zip (z :: p :: r ++ [z]) (p :: r ++ [z])) with ((z, p) :: zip ((p :: r) ++ [z]) (r ++ [z])).
  change (p :: r ++ [z]) with ((p :: r) ++ [z]). rewrite zip_cut by (rewrite app_length; cbn; lia).
  rewrite (zip_snoc (p :: r) (r ++ [z])) by (rewrite app_length; cbn; lia). apply Permutation_cons_append.
Qed.
Lemma edges_fst {A} (ps : list A) : map fst (edges ps) = ps.
Proof.
  destruct ps as [|p r]; [done|]. unfold edges. change (map fst) with (fmap (M := list) (@fst A A)). apply fst_zip. rewrite app_length. cbn. lia.
Qed.
Lemma edges_snd {A} (ps : list A) : map snd (edges ps) ≡ₚ ps.
Proof.
  destruct ps as [|p r]; [done|]. unfold edges. change (map snd) with (fmap (M := list) (@snd A A)).
  rewrite snd_zip by (rewrite app_length; cbn; lia). by rewrite Permutation_app_comm.
Qed.
Lemma edges_map {A B} (h : A → B) ps : edges (map h ps) = map (λ e, (h e.1, h e.2)) (edges ps).
Proof.
  destruct ps as [|p r]; [done|]. unfold edges. cbn [map]. change (h p :: map h r) with (map h (p :: r)).
  replace (map h r ++ [h p]) with (map h (r ++ [p])) by (by rewrite map_app).
  generalize (p :: r) (r ++ [p]). intros l. induction l as [|a l IH]; intros [|b m]; cbn; try done. f_equal. apply IH.
Qed.
Lemma edges_in {A} (ps : list A) e : e ∈ edges ps → e.1 ∈ ps ∧ e.2 ∈ ps.
Proof.
  intros He. split.
  - rewrite <- (edges_fst ps). by apply elem_of_list_fmap_1.
  - rewrite <- (edges_snd ps). by apply elem_of_list_fmap_1.
Qed.
Lemma edges_telescope {A} (h : A → R) ps : rsum (λ e, h e.1) (edges ps) = rsum (λ e, h e.2) (edges ps).
Proof.
  rewrite <- (rsum_map h fst), <- (rsum_map h snd). rewrite edges_fst. symmetry. apply rsum_perm, edges_snd.
Qed.
Lemma rsum_cedges {A} (h : A * A → R) ps z : last ps = Some z → rsum h (cedges z ps) = rsum h (edges ps).
Proof. intros H. apply rsum_perm. by apply cedges_perm. Qed.

(** ** A loop over the nodes of a face *)
Lemma loop_nodes {S} (coords : list R) (facenodes : list nat) (body : nat → S → option S) (h : S → vec → S) b ns ps s :
  (∀ k node p s, facenodes !! k = Some node → node ∈ ns → at3 coords node p → body k s = Some (h s p)) →
  slice facenodes b (length ns) = Some ns → Forall2 (at3 coords) ns ps →
  for_loop (length ns) b body s = Some (foldl h s ps).
Proof.
  intros Hb Hs HF. revert b s Hs Hb. induction HF as [|n p ns ps Hn HF IH]; intros b s Hs Hb; [done|].
  cbn [length for_loop]. pose proof (slice_lookup _ _ _ _ 0 Hs) as H0. rewrite Nat.add_0_r in H0. cbn in H0.
  assert (Eb : facenodes !! b = Some n) by (apply H0; lia).
  rewrite (Hb b n p s Eb) by (done || left). cbn [mbind option_bind foldl]. apply IH.
  - cbn [length slice] in Hs. rewrite Eb in Hs. cbn [mbind option_bind] in Hs. destruct (slice facenodes (Datatypes.S b) (length ns)) as [r|] eqn:E; [|done].
    cbn in Hs. by injection Hs as ->.
  - intros k node q t E1 E2 E3. apply (Hb k node); [done|by right|done].
Qed.
Lemma loop_slice {S} (cellfaces : list nat) (body : nat → S → option S) (h : S → nat → S) b row s :
  (∀ k f s, cellfaces !! k = Some f → f ∈ row → body k s = Some (h s f)) →
  slice cellfaces b (length row) = Some row → for_loop (length row) b body s = Some (foldl h s row).
Proof.
  revert b s. induction row as [|f row IH]; intros b s Hb Hs; [done|].
  cbn [length for_loop]. pose proof (slice_lookup _ _ _ _ 0 Hs) as H0. rewrite Nat.add_0_r in H0. cbn in H0.
  assert (Eb : cellfaces !! b = Some f) by (apply H0; lia).
  rewrite (Hb b f s Eb) by left. cbn [mbind option_bind foldl]. apply IH.
  - intros k f' t E1 E2. apply Hb; [done|by right].
  - cbn [length slice] in Hs. rewrite Eb in Hs. cbn [mbind option_bind] in Hs. destruct (slice cellfaces (Datatypes.S b) (length row)) as [r|] eqn:E; [|done].
    cbn in Hs. by injection Hs as ->.
Qed.
Lemma each3_plus u v : each3 Rplus u v = vadd u v.
Proof. done. Qed.
Lemma each3_minus u v : each3 Rminus u v = vsub u v.
Proof. unfold each3. vring. Qed.
Lemma cross_eq u v : cross u v = vcross u v.
Proof. done. Qed.
Lemma norm_eq u : norm u = vlen u.
Proof. done. Qed.
Lemma foldl_vadd s ps : foldl (each3 Rplus) s ps = vadd s (vsum ps).
Proof.
  revert s. induction ps as [|p ps IH]; intros s; cbn [foldl vsum foldr]; [by rewrite vadd_0_r|]. rewrite IH.
  change (each3 Rplus s p) with (vadd s p). symmetry. apply vadd_assoc.
Qed.
Lemma div3_ok u d : d ≠ 0 → div3 u d = Some (vscale (/ d) u).
Proof.
  intros H. unfold div3, rdiv. destruct (Req_EM_T d 0); [done|]. cbn. f_equal. unfold vscale. cbn. f_equal; [f_equal|]; unfold Rdiv; ring.
Qed.

Section face.
Variable coords : list R.
Variables nodepos facenodes : list nat.

Lemma face_start_ok f ps : polygon coords nodepos facenodes f ps → ps ≠ [] → ∃ b e z ns, corners nodepos facenodes f ns ∧ Forall2 (at3 coords) ns ps ∧
  (e - b)%nat = length ns ∧ slice facenodes b (length ns) = Some ns ∧ last ps = Some z ∧
  face_start coords nodepos facenodes f = Some (b, e, mean ps, vsub z (mean ps)).
Proof.
  intros (ns & (b & e & Eb & Ee & Hle & Hs) & HF) Hne. pose proof (slice_length _ _ _ _ Hs) as Hl. pose proof (Forall2_length _ _ _ HF) as Hl2.
  destruct (last ps) as [z|] eqn:Ez; [|by apply last_None in Ez].
  assert (0 < length ps)%nat by (destruct ps; [done|cbn; lia]).
  exists b, e, z, ns. rewrite Hl. split; [by exists b, e|]. do 4 (split; [done|]).
  unfold face_start. rewrite Eb. replace (f + 1)%nat with (S f) by lia. rewrite Ee. cbn [mbind option_bind]. rewrite <- Hl.
  rewrite (loop_nodes coords facenodes _ (each3 Rplus) b ns ps zero3); [| |by rewrite Hl|done].
  2:{ intros k node p s E1 _ E2. rewrite E1. cbn [mbind option_bind]. apply read3_at in E2. by rewrite E2. }
  cbn [mbind option_bind]. rewrite foldl_vadd. unfold zero3. rewrite vadd_0_l. rewrite <- Nat2Z.inj_sub, <- INR_IZR_INZ by done.
  rewrite <- Hl, Hl2. assert (INR (length ps) ≠ 0) by (apply not_0_INR; lia). rewrite div3_ok by done. cbn [mbind option_bind].
  change (vscale (/ INR (length ps)) (vsum ps)) with (mean ps). rewrite decide_False by lia.
  pose proof (slice_lookup _ _ _ _ (length ns - 1)%nat Hs) as He. replace (b + (length ns - 1))%nat with (e - 1)%nat in He by lia. rewrite He by lia.
  rewrite last_lookup in Ez. destruct (lookup_lt_is_Some_2 ns (length ns - 1)) as [nd End]; [lia|]. rewrite End. cbn [mbind option_bind].
  destruct (Forall2_lookup_l _ _ _ _ _ HF End) as (q & Eq & Hq). replace (Init.Nat.pred (length ps)) with (length ns - 1)%nat in Ez by lia. rewrite Ez in Eq. injection Eq as <-.
  apply read3_at in Hq. rewrite Hq. cbn [mbind option_bind]. by rewrite each3_minus.
Qed.

(** What one triangle adds. *)
Definition tri_step (x : vec) (s : arr3 * arr3 * arr3 * R) (p : vec) : arr3 * arr3 * arr3 * R :=
  let '(u, n, c, a) := s in
  let v := vsub p x in let w := vcross u v in let t := 1 / 2 * vlen w in
  (v, vadd n w, vadd c (vscale t (vadd x (vscale (1 / 3) (vadd u v)))), a + t).
Lemma tri_steps x ps : ∀ z n c a, foldl (tri_step x) (vsub z x, n, c, a) ps =
  (vsub (default z (last ps)) x, vadd n (vrsum (λ e, vcross (vsub e.1 x) (vsub e.2 x)) (cedges z ps)),
   vadd c (vrsum (λ e, vscale (1 / 2 * vlen (vcross (vsub e.1 x) (vsub e.2 x))) (tri_centre x e)) (cedges z ps)),
   a + rsum (λ e, 1 / 2 * vlen (vcross (vsub e.1 x) (vsub e.2 x))) (cedges z ps)).
Proof.
  induction ps as [|p ps IH]; intros z n c a.
  - cbn. rewrite !vadd_0_r. by rewrite Rplus_0_r.
  - cbn [foldl]. unfold tri_step at 2. rewrite IH. change (cedges z (p :: ps)) with ((z, p) :: cedges p ps).
    rewrite !vrsum_cons. cbn [rsum fst snd]. rewrite !vadd_assoc. rewrite <- Rplus_assoc.
    assert (default p (last ps) = default z (last (p :: ps))) as ->.
    { rewrite last_cons. by destruct (last ps). }
    repeat f_equal. unfold tri_centre. cbn [fst snd]. unfold vsub. vring.
Qed.
Lemma vlen_half v : vlen (vscale (1 / 2) v) = 1 / 2 * vlen v.
Proof.
  unfold vlen. replace (vdot (vscale (1 / 2) v) (vscale (1 / 2) v)) with ((1 / 2) * (1 / 2) * vdot v v) by (unfold vdot, vscale; cbn; field).
  rewrite sqrt_mult_alt by lra. rewrite sqrt_square by lra. done.
Qed.
Lemma face_loop_ok b ns ps z : slice facenodes b (length ns) = Some ns → Forall2 (at3 coords) ns ps → last ps = Some z → let x := mean ps in ∃ u,
  for_loop (length ns) b (face_tri coords facenodes x) (vsub z x, zero3, zero3, 0) =
  Some (u, vscale 2 (vrsum (tri_vector x) (edges ps)), vrsum (λ e, vscale (vlen (tri_vector x e)) (tri_centre x e)) (edges ps), fan_area ps).
Proof.
  intros Hs HF Hz x. eexists. rewrite (loop_nodes coords facenodes _ (tri_step x) b ns ps); [| |done|done].
  - rewrite tri_steps. unfold zero3. rewrite !vadd_0_l, Rplus_0_l. rewrite !(vrsum_perm _ _ _ (cedges_perm _ _ Hz)), (rsum_cedges _ _ _ Hz).
    assert (∀ (a a' : arr3) (b b' c c' : arr3) (d d' : R), a = a' → b = b' → c = c' → d = d' → Some (a, b, c, d) = Some (a', b', c', d')) as R1 by (intros; by subst).
    apply R1; [reflexivity| | |].
    + rewrite <- vrsum_scale. apply vrsum_ext. intros e _. unfold tri_vector. vring.
    + apply vrsum_ext. intros e _. unfold tri_vector. by rewrite vlen_half.
    + unfold fan_area. apply rsum_ext. intros e _. unfold tri_vector. by rewrite vlen_half.
  - intros k node p [[[u n] c] a] E1 _ E2. unfold face_tri, tri_step. rewrite E1. cbn [mbind option_bind]. apply read3_at in E2. rewrite E2. cbn [mbind option_bind].
    rewrite !each3_minus, cross_eq, norm_eq. do 2 f_equal. f_equal. unfold each3, twothirds. vring.
Qed.
End face.
