(** C53, C54: the nodes at crossings, reversed faces, reflected nodes and
    orientation. *)
From Coq Require Import Reals Lra Psatz.
From Verif Require Import Base LoopModel LoopProof TableModel UniqModel PillarModel PrepModel HorizSpec VertModel VertSpec VertProc GrdModel GrdSpec GrdProps.
Unset Default Proof Using.

(** ** Nodes at crossings *)
Lemma quads_len I : length (quads I) = 4 * length I.
Proof. induction I as [|[[[a b] c] d] I IH]; [done|]. change (quads ((a, b, c, d) :: I)) with ([a; b; c; d] ++ quads I). rewrite app_length, IH. cbn. lia. Qed.
Lemma quads_cat I J : quads (I ++ J) = quads I ++ quads J.
Proof. unfold quads. by rewrite fmap_app, concat_app. Qed.
Lemma quads_slice I r k a b c d : I !! k = Some (a, b, c, d) → slice (quads I ++ r) (4 * k) 4 = Some [a; b; c; d].
Proof.
  intros Hk. apply slice_pointwise; [done|]. intros i Hi.
  rewrite <- (take_drop_middle I k _ Hk), quads_cat. change (quads ((a, b, c, d) :: drop (S k) I)) with ([a; b; c; d] ++ quads (drop (S k) I)).
  assert (Hl : k < length I) by (by eapply lookup_lt_Some).
  rewrite <- !app_assoc, lookup_app_r by (rewrite quads_len, take_length; lia). rewrite quads_len, take_length.
  rewrite lookup_app_l by (cbn; lia). f_equal. lia.
Qed.
(** C53: all nodes at crossings are computed, and only these are written. *)
Theorem C53_nodes junk n np I r coords : n = np + length I → 3 * np ≤ length coords →
  (∀ p1 p2 q1 q2, (p1, p2, q1, q2) ∈ I → (0 ≤ p1 < Z.of_nat np ∧ 0 ≤ p2 < Z.of_nat np ∧ 0 ≤ q1 < Z.of_nat np ∧ 0 ≤ q2 < Z.of_nat np)%Z ∧
    ∃ z1 z2 y1 y2, coords !! (3 * Z.to_nat p1 + 2) = Some z1 ∧ coords !! (3 * Z.to_nat p2 + 2) = Some z2 ∧
      coords !! (3 * Z.to_nat q1 + 2) = Some y1 ∧ coords !! (3 * Z.to_nat q2 + 2) = Some y2 ∧ ((z1 - y1) * (z2 - y2) < 0)%R) →
  ∃ coords', compute_intersection_coordinates junk n np (quads I ++ r) coords = Some coords' ∧ length coords' = 3 * n ∧
    (∀ v, v < np → slice coords' (3 * v) 3 = slice coords (3 * v) 3) ∧
    ∀ m p1 p2 q1 q2, I !! m = Some (p1, p2, q1, q2) → ∃ A B C D x,
      slice coords (3 * Z.to_nat p1) 3 = Some A ∧ slice coords (3 * Z.to_nat p2) 3 = Some B ∧
      slice coords (3 * Z.to_nat q1) 3 = Some C ∧ slice coords (3 * Z.to_nat q2) 3 = Some D ∧
      slice coords' (3 * (np + m)) 3 = Some x ∧ crosses A B C D x.
Proof.
  intros -> Hl HI. unfold compute_intersection_coordinates. replace (np + length I - np) with (length I) by lia.
  set (n := np + length I) in *.
  destruct (for_loop_inv (λ k (c : list R), length c = 3 * n ∧ (∀ i, i < 3 * np → c !! i = coords !! i) ∧
    ∀ m p1 p2 q1 q2, m < k → I !! m = Some (p1, p2, q1, q2) → ∃ A B C D x,
      slice coords (3 * Z.to_nat p1) 3 = Some A ∧ slice coords (3 * Z.to_nat p2) 3 = Some B ∧
      slice coords (3 * Z.to_nat q1) 3 = Some C ∧ slice coords (3 * Z.to_nat q2) 3 = Some D ∧
      slice c (3 * (np + m)) 3 = Some x ∧ crosses A B C D x) (length I) 0 (λ k coords,
    l ← slice (quads I ++ r) (4 * k) 4;
    match l with
    | [l0; l1; l2; l3] =>
      if decide (0 ≤ l0 ∧ 0 ≤ l1 ∧ 0 ≤ l2 ∧ 0 ≤ l3)%Z then
        pt ← approximate_intersection_pt (Z.to_nat l0) (Z.to_nat l1) (Z.to_nat l2) (Z.to_nat l3) coords;
        memcpy coords (3 * (np + k)) pt
      else None
    | _ => None
    end) (realloc_arr junk (3 * n) coords)) as (c' & E & L & G & Hc).
  - split; [apply realloc_arr_length|]. split; [|intros; lia]. intros i Hi. apply realloc_arr_lookup; lia.
  - intros k c Hk (L & G & Hc). destruct (lookup_lt_is_Some_2 I k) as [[[[p1 p2] q1] q2] Hik]; [lia|].
    rewrite (quads_slice I r k _ _ _ _ Hik). cbn [mbind option_bind]. destruct (HI p1 p2 q1 q2) as (Hr & z1 & z2 & y1 & y2 & Z1 & Z2 & Y1 & Y2 & Hx); [by eapply elem_of_list_lookup_2|].
    rewrite decide_True by lia.
    assert (HS : ∀ p, (0 ≤ p < Z.of_nat np)%Z → ∃ A, slice coords (3 * Z.to_nat p) 3 = Some A ∧ slice c (3 * Z.to_nat p) 3 = Some A).
    { intros p Hp. eexists. split; [apply slice_Some; lia|]. rewrite <- slice_Some by lia. apply slice_ext. intros i ? ?. apply G. lia. }
    destruct (HS p1) as (A & A1 & A2); [lia|]. destruct (HS p2) as (B & B1 & B2); [lia|]. destruct (HS q1) as (C & C1 & C2); [lia|]. destruct (HS q2) as (D & D1 & D2); [lia|].
    destruct (C53_crossing c _ _ _ _ _ _ _ _ A2 B2 C2 D2) as (pt & Ept & Lpt & Hcr).
    { exists z1, z2, y1, y2. rewrite <- (slice_lookup _ _ _ _ 2 A1), <- (slice_lookup _ _ _ _ 2 B1), <- (slice_lookup _ _ _ _ 2 C1), <- (slice_lookup _ _ _ _ 2 D1) by lia. done. }
    rewrite Ept. cbn [mbind option_bind]. destruct (memcpy c (3 * (np + k)) pt) as [c2|] eqn:E2.
    2:{ rewrite memcpy_Some in E2; [done|]. lia. }
    exists c2. split; [done|]. split; [by rewrite (memcpy_length _ _ _ _ E2)|]. split.
    + intros i Hi. rewrite (memcpy_lookup_lt _ _ _ _ i E2) by lia. by apply G.
    + intros m a1 a2 b1 b2 Hm Him. destruct (decide (m = k)) as [->|].
      * rewrite Hik in Him. simplify_eq. exists A, B, C, D, pt. do 4 (split; [done|]). split; [|done]. pose proof (slice_memcpy _ _ _ _ E2) as HM. by rewrite Lpt in HM.
      * destruct (Hc m a1 a2 b1 b2) as (A' & B' & C' & D' & x & ? & ? & ? & ? & Hx' & ?); [lia|done|]. exists A', B', C', D', x. do 4 (split; [done|]). split; [|done].
        rewrite <- Hx'. apply slice_ext. intros i ? ?. apply (memcpy_lookup_lt _ _ _ _ i E2). lia.
  - exists c'. split; [exact E|]. split; [done|]. split.
    + intros v Hv. apply slice_ext. intros i ? ?. apply G. lia.
    + intros m p1 p2 q1 q2 Hm. apply (Hc m); [|done]. apply lookup_lt_Some in Hm. lia.
Qed.
Print Assumptions C53_nodes.
(** Two lines that cross in the middle of two pillars one unit apart. *)
Example C53_case : ∃ x, approximate_intersection_pt 0 2 1 3 [0; 0; 0;  0; 0; 2;  1; 1; 2;  1; 1; 0]%R = Some x ∧ x = [1 / 2; 1 / 2; 1]%R.
Proof.
  eexists. split; [|reflexivity]. unfold approximate_intersection_pt. rewrite decide_True by lia. cbn [lookup list_lookup mbind option_bind Nat.mul Nat.add].
  destruct (Rlt_dec 0 (Rabs (2 - 0 - (0 - 2)))) as [_|n]; [|exfalso; apply n; rewrite Rabs_right; lra].
  unfold rdiv. repeat (destruct (Req_EM_T _ _) as [e|_]; [exfalso; lra|]; cbn [mbind option_bind]). f_equal. f_equal; [field|f_equal; [field|f_equal; field]].
Qed.
(** The hypotheses of C53_nodes are met by these lines. *)
Example C53_hypotheses : ∀ p1 p2 q1 q2, (p1, p2, q1, q2) ∈ [(0, 2, 1, 3)%Z] → let coords := [0; 0; 0;  0; 0; 2;  1; 1; 2;  1; 1; 0]%R in
  (0 ≤ p1 < 4 ∧ 0 ≤ p2 < 4 ∧ 0 ≤ q1 < 4 ∧ 0 ≤ q2 < 4)%Z ∧
    ∃ z1 z2 y1 y2, coords !! (3 * Z.to_nat p1 + 2) = Some z1 ∧ coords !! (3 * Z.to_nat p2 + 2) = Some z2 ∧
      coords !! (3 * Z.to_nat q1 + 2) = Some y1 ∧ coords !! (3 * Z.to_nat q2 + 2) = Some y2 ∧ ((z1 - y1) * (z2 - y2) < 0)%R.
Proof. intros p1 p2 q1 q2 H coords. apply elem_of_list_singleton in H. simplify_eq. split; [lia|]. exists 0%R, 2%R, 2%R, 0%R. do 4 (split; [done|]). lra. Qed.

(** ** Reversed faces *)
Lemma swap_ends_ok fuel : ∀ a l b, length l ≤ fuel → l ≠ [] → swap_ends fuel (length a) (length a + length l - 1) (a ++ l ++ b) = Some (a ++ rev l ++ b).
Proof.
  induction fuel as [|fuel IH]; intros a l b Hf Hl; [destruct l; [done|cbn in Hf; lia]|].
  destruct l as [|x l]; [done|]. destruct (decide (l = [])) as [->|Hne].
  - cbn [swap_ends length]. rewrite decide_False by lia. done.
  - destruct (exists_last Hne) as (m & y & ->). cbn [swap_ends]. rewrite app_comm_cons. rewrite app_length. cbn [length]. rewrite decide_True by lia.
    assert (E1 : (a ++ ((x :: m) ++ [y]) ++ b) !! length a = Some x) by (rewrite lookup_app_r by lia; by rewrite Nat.sub_diag).
    set (j := length a + (S (length m) + 1) - 1).
    assert (E2 : (a ++ ((x :: m) ++ [y]) ++ b) !! j = Some y). { subst j. rewrite lookup_app_r by lia. rewrite <- app_assoc, lookup_app_r by (cbn; lia). replace _ with 0; [done|]. cbn. lia. }
    rewrite E1, E2. cbn [mbind option_bind]. rewrite upd_Some by (rewrite !app_length; cbn; lia). cbn [mbind option_bind].
    rewrite upd_Some by (rewrite insert_length, !app_length; cbn; subst j; lia). cbn [mbind option_bind].
    replace (<[j:=x]> (<[length a:=y]> (a ++ ((x :: m) ++ [y]) ++ b))) with ((a ++ [y]) ++ m ++ ([x] ++ b)).
    2:{ assert (G1 : <[length a:=y]> (a ++ ((x :: m) ++ [y]) ++ b) = (a ++ y :: m) ++ y :: b).
        { replace (length a) with (length a + 0) by lia. rewrite insert_app_r. rewrite <- !app_assoc. done. }
        rewrite G1. replace j with (length (a ++ y :: m) + 0) by (rewrite app_length; subst j; cbn; lia). rewrite insert_app_r. rewrite <- !app_assoc. done. }
    cbn [rev]. rewrite rev_app_distr. cbn [rev app].
    destruct (decide (m = [])) as [->|Hm].
    + cbn [app rev]. destruct fuel; cbn [swap_ends]; rewrite decide_False by (subst j; cbn; lia); by rewrite <- !app_assoc.
    + replace (length a + 1) with (length (a ++ [y])) by (rewrite app_length; done).
      replace (j - 1) with (length (a ++ [y]) + length m - 1) by (rewrite app_length; subst j; cbn; lia).
      etransitivity; [apply (IH (a ++ [y]) m ([x] ++ b)); [|done]|];  [cbn in Hf; rewrite app_length in Hf; cbn in Hf; lia|]. by rewrite <- !app_assoc.
Qed.
(** A face with its nodes in the opposite order. *)
Definition reversed (x : face) : face := Face (fc_a x) (fc_b x) (rev (fc_nodes x)).
(** C54: the nodes of every face are reversed, and nothing else changes. *)
Theorem C54_reverse g F : holds g F → (∀ x, x ∈ F → fc_nodes x ≠ []) →
  ∃ nodes, reverse_face_nodes (g_nf g) (g_ptr g) (g_nodes g) = Some nodes ∧
    holds (PGrid (g_m g) (g_n g) (g_nbr g) nodes (g_ptr g) (g_tag g) (g_nf g) (g_its g) (g_nn g) (g_np g)) (reversed <$> F).
Proof.
  intros Hh Hne. destruct (ho_nodes _ _ Hh) as [r Er]. unfold reverse_face_nodes. rewrite (ho_nf _ _ Hh).
  assert (Hlr : ∀ G : list face, length (concat (fc_nodes <$> (reversed <$> G))) = length (concat (fc_nodes <$> G))).
  { clear. induction G as [|x G IH]; [done|]. cbn. rewrite !app_length, rev_length. f_equal. exact IH. }
  destruct (for_loop_inv (λ k nodes, nodes = concat (fc_nodes <$> (reversed <$> take k F)) ++ concat (fc_nodes <$> drop k F) ++ r) (length F) 0 (λ f nodes,
    b ← g_ptr g !! f; e ← g_ptr g !! (f + 1);
    if decide (b < e) then swap_ends (e - b) b (e - 1) nodes else None) (g_nodes g)) as (nodes & E & Hn).
  - by rewrite Er.
  - intros k nodes Hk ->. destruct (lookup_lt_is_Some_2 F k) as [x Hx]; [lia|]. rewrite !(ho_ptr _ _ Hh) by lia. cbn [mbind option_bind].
    assert (Hnx : fc_nodes x ≠ []) by (apply Hne; by eapply elem_of_list_lookup_2).
    replace (k + 1) with (S k) by lia. rewrite (take_S_r _ _ _ Hx), !fmap_app, !concat_app, !app_length. cbn [fmap list_fmap concat]. rewrite !app_nil_r.
    rewrite (drop_S _ _ _ Hx). cbn [fmap list_fmap concat]. rewrite <- (Hlr (take k F)).
    rewrite decide_True by (destruct (fc_nodes x); [done|cbn; lia]). eexists. split.
    + rewrite <- (app_assoc (fc_nodes x)). apply swap_ends_ok; [lia|done].
    + by rewrite <- !app_assoc.
  - exists nodes. split; [exact E|]. rewrite Nat.add_0_l, firstn_all, drop_all in Hn. cbn [fmap list_fmap concat app] in Hn. destruct Hh as [H1 [r' H2] _ H4 H5 H6 H7 H8 H9]. split; cbn [g_m g_n g_nbr g_nodes g_ptr g_tag g_nf g_its g_nn g_np].
    + by rewrite fmap_length.
    + exists r'. rewrite H2. f_equal. f_equal. clear. induction F as [|x F IH]; [done|]. cbn. by rewrite <- IH.
    + by exists r.
    + intros k Hk. rewrite fmap_length in Hk. rewrite <- fmap_take, Hlr. by apply H4.
    + by rewrite fmap_length.
    + done.
    + rewrite <- H7, Hn, Er, !app_length, Hlr. done.
    + done.
    + done.
Qed.
Print Assumptions C54_reverse.
Example C54_reverse_case : reverse_face_nodes 2 [0; 4; 7] [1; 2; 3; 4;  5; 6; 7;  8]%Z = Some [4; 3; 2; 1;  7; 6; 5;  8]%Z.
Proof. reflexivity. Qed.

(** ** Reflected nodes *)
(** Coordinate [d] of the first [n] nodes is changed by [f]. *)
Theorem C54_each d n f coords : d < 3 → 3 * n ≤ length coords → ∃ coords', each_coord d n f coords = Some coords' ∧ length coords' = length coords ∧
  (∀ v x, v < n → coords !! (3 * v + d) = Some x → coords' !! (3 * v + d) = Some (f x)) ∧
  (∀ v e, e < 3 → v ≥ n ∨ e ≠ d → coords' !! (3 * v + e) = coords !! (3 * v + e)).
Proof.
  intros Hd Hl. unfold each_coord.
  destruct (for_loop_inv (λ k (c : list R), length c = length coords ∧ (∀ v x, v < k → coords !! (3 * v + d) = Some x → c !! (3 * v + d) = Some (f x)) ∧
    (∀ v e, e < 3 → v ≥ k ∨ e ≠ d → c !! (3 * v + e) = coords !! (3 * v + e))) n 0 (λ i coords, x ← coords !! (3 * i + d); upd coords (3 * i + d) (f x)) coords) as (c' & E & L & H1 & H2).
  - split; [done|]. split; [intros; lia|done].
  - intros k c Hk (L & H1 & H2). rewrite (H2 k d) by lia. destruct (lookup_lt_is_Some_2 coords (3 * k + d)) as [x Hx]; [lia|]. rewrite Hx. cbn [mbind option_bind]. rewrite upd_Some by lia.
    eexists. split; [done|]. split; [by rewrite insert_length|]. split.
    + intros v y Hv Hy. destruct (decide (v = k)) as [->|].
      * rewrite Hx in Hy. simplify_eq. apply list_lookup_insert. lia.
      * rewrite list_lookup_insert_ne by lia. apply H1; [lia|done].
    + intros v e He Hve. rewrite list_lookup_insert_ne by lia. apply H2; [done|lia].
  - exists c'. split; [exact E|]. split; [done|]. split; [done|]. intros v e He Hve. apply H2; [done|lia].
Qed.
Print Assumptions C54_each.

(** ** Orientation *)
Section handed.
Variables (nx ny nz : nat) (actnum : option (list Z)) (coord zcorn : list R).
Hypothesis Hx : 0 < nx.
Hypothesis Hy : 0 < ny.
Hypothesis Hz : length zcorn = 8 * (nx * ny * nz).
Hypothesis Ha : ∀ a, actnum = Some a → nx * ny * nz ≤ length a.

Lemma edge_some i j k a b : i < nx → j < ny → k < nz → a < 2 → b < 2 → ∃ z t d, edge nx ny zcorn i j k a b z ∧
  zcorn !! (2 * i + 2 * nx * (2 * j + 2 * ny * (2 * k)) + (a + 2 * nx * b)) = Some t ∧
  zcorn !! (2 * i + 2 * nx * (2 * j + 2 * ny * (2 * k)) + (a + 2 * nx * b + 2 * nx * (2 * ny))) = Some d ∧ z = (d - t)%R.
Proof using Hz.
  clear Ha Hx Hy. intros Hi Hj Hk Hla Hb.
  assert (B : ∀ kk, kk < 2 * nz → 2 * i + a + 2 * nx * (2 * j + b + 2 * ny * kk) < length zcorn).
  { intros kk Hkk. rewrite Hz. assert (2 * j + b + 2 * ny * kk < 2 * ny * (2 * nz)) by nia. nia. }
  destruct (lookup_lt_is_Some_2 zcorn _ (B (2 * k) ltac:(lia))) as [t Ht]. destruct (lookup_lt_is_Some_2 zcorn _ (B (2 * k + 1) ltac:(lia))) as [d Hd].
  exists (d - t)%R, t, d. split; [by exists t, d|]. 
  replace (2 * i + 2 * nx * (2 * j + 2 * ny * (2 * k)) + (a + 2 * nx * b)) with (2 * i + a + 2 * nx * (2 * j + b + 2 * ny * (2 * k))) by nia.
  replace (2 * i + 2 * nx * (2 * j + 2 * ny * (2 * k)) + (a + 2 * nx * b + 2 * nx * (2 * ny))) with (2 * i + a + 2 * nx * (2 * j + b + 2 * ny * (2 * k + 1))) by nia.
  rewrite Ht, Hd. done.
Qed.
(** [vert_size] is zero only if all extents are, and one of them otherwise. *)
Lemma vert_size_ok i j k : i < nx → j < ny → k < nz → ∃ dz, vert_size nx ny nz zcorn (i + nx * (j + ny * k)) = Some dz ∧
  (dz = 0%R → ∀ a b z, a < 2 → b < 2 → edge nx ny zcorn i j k a b z → z = 0%R) ∧ (dz ≠ 0%R → ∃ a b, a < 2 ∧ b < 2 ∧ edge nx ny zcorn i j k a b dz).
Proof using Hz.
  clear Ha Hx Hy. intros Hi Hj Hk. unfold vert_size. rewrite decide_True by (assert (j + ny * k < ny * nz) by nia; nia).
  assert (E1 : (i + nx * (j + ny * k)) mod nx = i) by (rewrite Nat.mul_comm, Nat.mod_add by lia; by apply Nat.mod_small).
  assert (E2 : (i + nx * (j + ny * k)) / nx = j + ny * k) by (rewrite Nat.mul_comm, Nat.div_add by lia; rewrite Nat.div_small by done; lia).
  assert (E3 : (j + ny * k) mod ny = j) by (rewrite Nat.mul_comm, Nat.mod_add by lia; by apply Nat.mod_small).
  assert (E4 : (j + ny * k) / ny = k) by (rewrite Nat.mul_comm, Nat.div_add by lia; rewrite Nat.div_small by done; lia).
  rewrite E1, E2, E3, E4.
  destruct (edge_some i j k 0 0 Hi Hj Hk) as (z0 & t0 & d0 & D0 & L0 & U0 & Z0); [lia|lia|]. destruct (edge_some i j k 1 0 Hi Hj Hk) as (z1 & t1 & d1 & D1 & L1 & U1 & Z1); [lia|lia|].
  destruct (edge_some i j k 0 1 Hi Hj Hk) as (z2 & t2 & d2 & D2 & L2 & U2 & Z2); [lia|lia|]. destruct (edge_some i j k 1 1 Hi Hj Hk) as (z3 & t3 & d3 & D3 & L3 & U3 & Z3); [lia|lia|].
  rewrite !Nat.mul_0_r, !Nat.add_0_l, !Nat.add_0_r in L0. rewrite !Nat.mul_0_r, !Nat.add_0_l in U0. rewrite !Nat.mul_0_r, !Nat.add_0_r in L1, U1. rewrite !Nat.add_0_l, Nat.mul_1_r in L2, U2. rewrite Nat.mul_1_r in L3, U3.
  set (s := 2 * i + 2 * nx * (2 * j + 2 * ny * (2 * k))) in *.
  cbn [for_loop]. cbn [lookup list_lookup mbind option_bind Nat.add].
  assert (Hdz : ∀ x : R, (∃ r, r = Rlt_dec 0 (Rabs x) ∧ (x = 0%R ∨ x ≠ 0%R))) by (intros x; eexists; split; [done|]; destruct (Req_EM_T x 0); [by left|by right]).
  assert (Hs : ∀ x : R, x = 0%R → ∀ (X : Type) (p q : X), (if Rlt_dec 0 (Rabs x) then p else q) = q) by (intros x -> X p q; rewrite Rabs_R0; destruct (Rlt_dec 0 0); [lra|done]).
  assert (Hn : ∀ x : R, x ≠ 0%R → ∀ (X : Type) (p q : X), (if Rlt_dec 0 (Rabs x) then p else q) = p) by (intros x Hxx X p q; destruct (Rlt_dec 0 (Rabs x)) as [|n]; [done|exfalso; apply n; by apply Rabs_pos_lt]).
  rewrite (Hs 0%R eq_refl). rewrite Nat.add_0_r. rewrite U0, L0. cbn [mbind option_bind]. rewrite <- Z0.
  assert (Hall : ∀ a b z, a < 2 → b < 2 → edge nx ny zcorn i j k a b z → z = z0 ∨ z = z1 ∨ z = z2 ∨ z = z3).
  { intros a b z Hla Hlb (t & d & Et & Ed & ->). destruct D0 as (? & ? & T0 & B0 & ->), D1 as (? & ? & T1 & B1 & ->), D2 as (? & ? & T2 & B2 & ->), D3 as (? & ? & T3 & B3 & ->).
    destruct a as [|[|]], b as [|[|]]; try lia; rewrite ?Et, ?Ed in *; simplify_eq; auto. }
  destruct (Req_EM_T z0 0) as [N0|N0].
  2:{ rewrite !(Hn z0 N0). cbn [mbind option_bind]. rewrite !(Hn z0 N0). cbn [mbind option_bind]. rewrite !(Hn z0 N0). cbn [mbind option_bind]. exists z0. split; [done|]. split; [done|]. intros _. exists 0, 0. auto. }
  rewrite (Hs z0 N0). change (1 + 2 * nx * (2 * ny)) with (S (2 * nx * (2 * ny))) in U1. rewrite U1, L1. cbn [mbind option_bind]. rewrite <- Z1.
  destruct (Req_EM_T z1 0) as [N1|N1].
  2:{ rewrite !(Hn z1 N1). cbn [mbind option_bind]. rewrite !(Hn z1 N1). cbn [mbind option_bind]. exists z1. split; [done|]. split; [done|]. intros _. exists 1, 0. auto. }
  rewrite (Hs z1 N1). rewrite U2, L2. cbn [mbind option_bind]. rewrite <- Z2.
  destruct (Req_EM_T z2 0) as [N2|N2].
  2:{ rewrite !(Hn z2 N2). cbn [mbind option_bind]. exists z2. split; [done|]. split; [done|]. intros _. exists 0, 1. auto. }
  rewrite (Hs z2 N2). rewrite (Nat.add_comm 1 (2 * nx)) in U3, L3. rewrite U3, L3. cbn [mbind option_bind]. rewrite <- Z3. exists z3. split; [done|]. split; [|intros _; exists 1, 1; auto].
  intros N3 a b z Hla Hlb He. destruct (Hall a b z Hla Hlb He) as [-> | [-> | [-> | ->]]]; done.
Qed.
Lemma in_use_dec c : c < nx * ny * nz → ∃ b, match actnum with None => Some true | Some a => x ← a !! c; Some (bool_decide (x ≠ 0)%Z) end = Some b ∧ (b = true ↔ in_use actnum c).
Proof using Ha.
  clear Hx Hy Hz. intros Hc. destruct actnum as [a|] eqn:E.
  - destruct (lookup_lt_is_Some_2 a c) as [x Hxx]; [specialize (Ha a eq_refl); lia|]. rewrite Hxx. cbn [mbind option_bind]. eexists. split; [done|]. rewrite bool_decide_eq_true. split.
    + intros Hne a' [= <-]. by exists x.
    + intros H. destruct (H a eq_refl) as (v & Hv & Hne). congruence.
  - exists true. split; [done|]. split; [intros _ a' [=]|done].
Qed.
Lemma search_ok m c : (∃ i j k a b z, i < nx ∧ j < ny ∧ k < nz ∧ c ≤ i + nx * (j + ny * k) ∧ i + nx * (j + ny * k) < c + m ∧ in_use actnum (i + nx * (j + ny * k)) ∧ a < 2 ∧ b < 2 ∧ edge nx ny zcorn i j k a b z ∧ z ≠ 0%R) →
  c + m = nx * ny * nz →
  ∃ dz, search m nx ny nz actnum zcorn c = Some dz ∧ dz ≠ 0%R ∧ ∃ i j k a b, i < nx ∧ j < ny ∧ k < nz ∧ in_use actnum (i + nx * (j + ny * k)) ∧ a < 2 ∧ b < 2 ∧ edge nx ny zcorn i j k a b dz.
Proof using Hx Hy Hz Ha.
  revert c. induction m as [|m IH]; intros c (i & j & k & a & b & z & Hi & Hj & Hk & Hlo & Hhi & Hu & Hla & Hlb & He & Hne) Hcm; [lia|]. cbn [search].
  destruct (in_use_dec c) as (bb & -> & Hbb); [lia|]. cbn [mbind option_bind].
  assert (Hnext : c ≠ i + nx * (j + ny * k) → ∃ dz, search m nx ny nz actnum zcorn (c + 1) = Some dz ∧ dz ≠ 0%R ∧ ∃ i j k a b, i < nx ∧ j < ny ∧ k < nz ∧ in_use actnum (i + nx * (j + ny * k)) ∧ a < 2 ∧ b < 2 ∧ edge nx ny zcorn i j k a b dz).
  { intros Hcne. apply IH; [|lia]. exists i, j, k, a, b, z. do 3 (split; [done|]). split; [lia|]. split; [lia|]. done. }
  destruct bb.
  - pose proof (proj1 Hbb eq_refl) as Hcu. pose proof (Nat.div_mod c nx ltac:(lia)) as E1. pose proof (Nat.div_mod (c / nx) ny ltac:(lia)) as E2.
    pose proof (Nat.mod_upper_bound c nx ltac:(lia)) as M1. pose proof (Nat.mod_upper_bound (c / nx) ny ltac:(lia)) as M2.
    assert (Hck : c / nx / ny < nz) by (apply Nat.div_lt_upper_bound; [lia|]; apply Nat.div_lt_upper_bound; [lia|]; lia).
    assert (Ec : c = c mod nx + nx * ((c / nx) mod ny + ny * (c / nx / ny))) by lia.
    destruct (vert_size_ok (c mod nx) ((c / nx) mod ny) (c / nx / ny) M1 M2 Hck) as (dz & Hdz & H0 & H1). rewrite <- Ec in Hdz. rewrite Hdz. cbn [mbind option_bind].
    destruct (Rlt_dec 0 (Rabs dz)) as [Hp|Hp].
    + assert (Hdn : dz ≠ 0%R) by (intros ->; rewrite Rabs_R0 in Hp; lra). destruct (H1 Hdn) as (a' & b' & ? & ? & ?). exists dz. split; [done|]. split; [done|]. eexists _, _, _, a', b'. split; [exact M1|]. split; [exact M2|]. split; [exact Hck|]. rewrite <- Ec. done.
    + apply Hnext. intros ->. assert (Hd0 : dz = 0%R) by (destruct (Req_EM_T dz 0); [done|exfalso; apply Hp; by apply Rabs_pos_lt]). apply Hne.
      replace i with ((i + nx * (j + ny * k)) mod nx) in He by (rewrite (Nat.mul_comm nx), Nat.mod_add by lia; by apply Nat.mod_small).
      apply (H0 Hd0 a b z Hla Hlb). destruct He as (t & d & Ht & Hd & ->). exists t, d.
      assert (F2 : (i + nx * (j + ny * k)) / nx = j + ny * k) by (rewrite (Nat.mul_comm nx), Nat.div_add by lia; rewrite Nat.div_small by done; lia).
      assert (F3 : (j + ny * k) mod ny = j) by (rewrite Nat.mul_comm, Nat.mod_add by lia; by apply Nat.mod_small).
      assert (F4 : (j + ny * k) / ny = k) by (rewrite Nat.mul_comm, Nat.div_add by lia; rewrite Nat.div_small by done; lia).
      rewrite F2, F3, F4. done.
  - apply Hnext. intros ->. apply Hbb in Hu. done.
Qed.
(** C54: if depths increase downwards, times [s], some cell in use is not flat
    and the grid is not, is_lefthanded succeeds, and process_grdecl reverses the
    faces exactly if the sides of the grid turn clockwise. *)
Theorem C54_handed s d : length coord = 6 * ((nx + 1) * (ny + 1)) → s = 1%Z ∨ s = (-1)%Z → descending nx ny nz actnum zcorn (IZR s) →
  (∃ i j k a b z, i < nx ∧ j < ny ∧ k < nz ∧ in_use actnum (i + nx * (j + ny * k)) ∧ a < 2 ∧ b < 2 ∧ edge nx ny zcorn i j k a b z ∧ z ≠ 0%R) →
  turn nx ny coord d → d ≠ 0%R →
  ∃ lh, is_lefthanded nx ny nz actnum coord zcorn = Some lh ∧ (xorb lh (bool_decide (s = (-1)%Z)) = true ↔ (d < 0)%R).
Proof using Hx Hy Hz Ha.
  intros Hc Hs Hd (i0 & j0 & k0 & a0 & b0 & z0 & Hi & Hj & Hk & Hu & Hla & Hlb & He & Hne) (x0 & y0 & xi & yi & xj & yj & C1 & C2 & C3 & C4 & C5 & C6 & Ed) Hdn.
  destruct (search_ok (nx * ny * nz) 0) as (dz & Es & Hdz & i & j & k & a & b & Hi' & Hj' & Hk' & Hu' & Ha' & Hb' & He').
  { exists i0, j0, k0, a0, b0, z0. do 3 (split; [done|]). split; [lia|]. split; [|done]. assert (j0 + ny * k0 < ny * nz) by nia. nia. }
  { done. }
  unfold is_lefthanded. rewrite !(Nat.mul_comm nx 6), !(Nat.mul_comm ((nx + 1) * ny) 6). rewrite C1, C2. cbn [mbind option_bind]. rewrite C3, C4. cbn [mbind option_bind]. rewrite C5, C6. cbn [mbind option_bind]. rewrite Es. cbn [mbind option_bind]. rewrite <- Ed.
  assert (Hpos : (0 < IZR s * dz)%R).
  { destruct He' as (t & dd & Ht & Hdd & ->). assert (Hle : (IZR s * t <= IZR s * dd)%R).
    { assert (F1 : (2 * i + a) / 2 = i) by (rewrite (Nat.mul_comm 2), Nat.div_add_l by lia; rewrite Nat.div_small by lia; lia).
      assert (F2 : (2 * j + b) / 2 = j) by (rewrite (Nat.mul_comm 2), Nat.div_add_l by lia; rewrite Nat.div_small by lia; lia).
      assert (F3 : (2 * k) / 2 = k) by (rewrite (Nat.mul_comm 2); apply Nat.div_mul; lia).
      assert (F4 : (2 * k + 1) / 2 = k) by (rewrite (Nat.mul_comm 2), Nat.div_add_l by lia; rewrite (Nat.div_small 1 2) by lia; lia).
      apply (Hd (2 * i + a) (2 * j + b) (2 * k)); [lia|lia|lia| | |done|done]; rewrite F1, F2, ?F3, ?F4; done. }
    destruct Hs as [-> | ->]; lra. }
  assert (Ht : (dz * d)%R ≠ 0%R) by (by apply Rmult_integral_contrapositive_currified).
  destruct (Rlt_dec 0 (Rabs (dz * d))) as [_|n]; [|exfalso; apply n; by apply Rabs_pos_lt].
  eexists. split; [done|]. destruct Hs as [-> | ->].
  - rewrite bool_decide_false by done. destruct (Rlt_dec (dz * d) 0) as [H|H]; cbn; split; try done; intros; nra.
  - rewrite bool_decide_true by done. destruct (Rlt_dec (dz * d) 0) as [H|H]; cbn; split; try done; intros; nra.
Qed.
End handed.
Print Assumptions C54_handed.
