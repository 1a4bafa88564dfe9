(** C17: topology of Cartesian grids in three dimensions. *)
From Verif Require Import Base LoopModel LoopProof CartModel CartSpec CartProof GridModel GridSpec CsrSpec.

(** The numbers of cells, faces and nodes are used exactly once each. *)
Theorem C17_numbering nx ny nz :
  (∀ i j k, cell_at nx ny nz i j k → cell_no nx ny i j k < ncells3 nx ny nz) ∧
  (∀ c, c < ncells3 nx ny nz → ∃ i j k, cell_at nx ny nz i j k ∧ c = cell_no nx ny i j k) ∧
  (∀ i j k i' j' k', cell_at nx ny nz i j k → cell_at nx ny nz i' j' k' →
     cell_no nx ny i j k = cell_no nx ny i' j' k' → i = i' ∧ j = j' ∧ k = k') ∧
  (∀ d i j k, face_at nx ny nz d i j k → face_no nx ny nz d i j k < nfaces3 nx ny nz) ∧
  (∀ f, f < nfaces3 nx ny nz → ∃ d i j k, face_at nx ny nz d i j k ∧ f = face_no nx ny nz d i j k) ∧
  (∀ d i j k d' i' j' k', face_at nx ny nz d i j k → face_at nx ny nz d' i' j' k' →
     face_no nx ny nz d i j k = face_no nx ny nz d' i' j' k' → d = d' ∧ i = i' ∧ j = j' ∧ k = k') ∧
  (∀ i j k, node_at nx ny nz i j k → node_no nx ny i j k < nnodes3 nx ny nz) ∧
  (∀ c, c < nnodes3 nx ny nz → ∃ i j k, node_at nx ny nz i j k ∧ c = node_no nx ny i j k) ∧
  (∀ i j k i' j' k', node_at nx ny nz i j k → node_at nx ny nz i' j' k' →
     node_no nx ny i j k = node_no nx ny i' j' k' → i = i' ∧ j = j' ∧ k = k').
Proof.
  split_and!; [apply cell_lt|apply cell_surj|apply cell_inj|apply face_lt|apply face_surj|apply face_inj|apply node_lt|apply node_surj|apply node_inj].
Qed.

(** The integer arrays of the grid, whatever the memory held before. *)
Theorem C17_topology nx ny nz m :
  0 < nx → 0 < ny → 0 < nz → sized3 nx ny nz m →
  ∃ t cf, topology3 nx ny nz m = Some t ∧ sized3 nx ny nz t ∧
    let g := ugrid_of (ncells3 nx ny nz) (nfaces3 nx ny nz) t in
    grid_ok g cf ∧
    (∀ f a b, face_between g f a b → ¬ (a = -1 ∧ b = -1)%Z) ∧
    (∀ i j k, cell_at nx ny nz i j k →
       cf !! cell_no nx ny i j k = Some (faces_of nx ny nz i j k) ∧
       slice (t_tag t) (6 * cell_no nx ny i j k) 6 = Some [0;1;2;3;4;5]) ∧
    (∀ d i j k, face_at nx ny nz d i j k →
       let f := face_no nx ny nz d i j k in
       face_between g f (below nx ny d i j k) (above nx ny nz i j k) ∧
       t_fnpos t !! f = Some (4 * f) ∧ t_fnpos t !! S f = Some (4 * f + 4) ∧
       slice (t_fn t) (4 * f) 4 = Some (corners nx ny d i j k)).
Proof.
  intros Hx Hy Hz Hm. exists (the_topo nx ny nz), (rows3 nx ny nz). split; [by apply topology3_ok|].
  split.
  { unfold sized3. cbn [the_topo t_cf t_cfpos t_tag t_fn t_fnpos t_fc]. rewrite all_nodes_length, all_fcells_length.
    rewrite (flat3_length _ _ _ 6) by done. rewrite (flat_length _ _ 6) by done.
    unfold multiples. rewrite !map_length, !seq_length. done. }
  intros g. split; [by apply cart3_ok|]. split_and!.
  - intros f a b Hab [-> ->].
    assert (Hf : f < nfaces3 nx ny nz).
    { destruct Hab as [_ H]. apply lookup_lt_Some in H. cbn in H. rewrite all_fcells_length in H. lia. }
    destruct (face_surj nx ny nz f Hf) as (d & i & j & k & Hat & ->). destruct (between nx ny nz Hx Hy Hz _ _ _ _ Hat) as [B1 B2].
    destruct Hab as [A1 A2]. cbn in A1, A2, B1, B2. rewrite A1 in B1. rewrite A2 in B2. injection B1 as B1. injection B2 as B2.
    unfold above in B2. destruct (decide (cell_at nx ny nz i j k)) as [Hc|Hc]; [lia|]. apply Hc. clear Hc.
    destruct Hat as (Hi & Hj & Hk). unfold cell_at. destruct d; simpl at_dir in *; cbn [below] in B1.
    + destruct i; [lia|]. lia.
    + destruct j; [lia|]. lia.
    + destruct k; [lia|]. lia.
  - intros i j k Hat. split; [by apply rows3_lookup|]. pose proof (cell_lt _ _ _ _ _ _ Hat).
    apply slice_pointwise; [done|]. intros t Ht. cbn [the_topo t_tag]. rewrite (flat_lookup _ _ 6); done.
  - intros d i j k Hat. cbv zeta. pose proof (face_lt _ _ _ _ _ _ _ Hat). split_and!.
    + by apply between.
    + cbn [the_topo t_fnpos]. rewrite multiples_lookup by lia. done.
    + cbn [the_topo t_fnpos]. rewrite multiples_lookup by lia. f_equal. lia.
    + by apply nodes_slice.
Qed.
Print Assumptions C17_topology.

(** The nodes of the six faces of a cell are the eight corners of the cell; the
    four nodes of a face are distinct, and neighbours in the list (also the last
    and the first) are one step apart. *)
Definition step (p q : nat * nat * nat) : Prop :=
  let '(i, j, k) := p in let '(i', j', k') := q in
  (i' = i + 1 ∨ i = i' + 1) ∧ j = j' ∧ k = k' ∨ i = i' ∧ (j' = j + 1 ∨ j = j' + 1) ∧ k = k' ∨ i = i' ∧ j = j' ∧ (k' = k + 1 ∨ k = k' + 1).
Theorem C17_corners nx ny nz :
  (∀ i j k n, cell_at nx ny nz i j k →
     ((∃ d i' j' k', face_at nx ny nz d i' j' k' ∧ face_no nx ny nz d i' j' k' ∈ faces_of nx ny nz i j k ∧ n ∈ corners nx ny d i' j' k')
      ↔ ∃ a b c, a ≤ 1 ∧ b ≤ 1 ∧ c ≤ 1 ∧ n = node_no nx ny (i + a) (j + b) (k + c))) ∧
  (∀ d i j k, face_at nx ny nz d i j k → NoDup (corners nx ny d i j k) ∧
     ∃ ps : list (nat * nat * nat), corners nx ny d i j k = map (λ '(i, j, k), node_no nx ny i j k) ps ∧ length ps = 4 ∧
       (∀ i j k, (i, j, k) ∈ ps → node_at nx ny nz i j k) ∧
       ∀ t p q, ps !! t = Some p → ps !! ((t + 1) mod 4) = Some q → step p q).
Proof.
  split.
  - intros i j k n Hat. split.
    + intros (d & i' & j' & k' & Hfa & Hin & Hn). destruct (faces_valid _ _ _ _ _ _ _ Hat Hin) as (d2 & i2 & j2 & k2 & Hfa2 & E & Hc).
      apply face_inj in E as (-> & -> & -> & ->); [|done|done].
      assert (W : ∀ a b c, a = i ∨ a = i + 1 → b = j ∨ b = j + 1 → c = k ∨ c = k + 1 → n = node_no nx ny a b c →
        ∃ a b c, a ≤ 1 ∧ b ≤ 1 ∧ c ≤ 1 ∧ n = node_no nx ny (i + a) (j + b) (k + c)).
      { intros a b c Ha Hb Hc' ->. exists (a - i), (b - j), (c - k). split_and!; try lia. f_equal; lia. }
      destruct Hc as [(-> & Hi & -> & ->)|[(-> & -> & Hj & ->)|(-> & -> & -> & Hk)]]; cbn [corners] in Hn;
        rewrite !elem_of_cons, elem_of_nil in Hn; destruct Hn as [->|[->|[->|[->|[]]]]]; eapply W; try reflexivity; lia.
    + intros (a & b & c & Ha & Hb & Hc & ->). destruct Hat as (Hi & Hj & Hk).
      exists DX, (i + a), j, k. split; [unfold face_at; simpl; lia|]. split.
      * unfold faces_of. assert (a = 0 ∨ a = 1) as [-> | ->] by lia; rewrite ?Nat.add_0_r, !elem_of_cons; tauto.
      * cbn [corners]. rewrite !elem_of_cons. assert (b = 0 ∨ b = 1) as [-> | ->] by lia; assert (c = 0 ∨ c = 1) as [-> | ->] by lia; rewrite ?Nat.add_0_r; tauto.
  - intros d i j k Hat.
    assert (HN : ∀ ps, NoDup ps → (∀ i j k, (i, j, k) ∈ ps → node_at nx ny nz i j k) → NoDup (map (λ '(i, j, k), node_no nx ny i j k) ps)).
    { intros ps Hnd Hps. apply NoDup_fmap_2_strong; [|done]. intros [[i1 j1] k1] [[i2 j2] k2] H1 H2 E.
      apply (node_inj nx ny nz) in E as (-> & -> & ->); auto. }
    assert (W : ∀ ps, corners nx ny d i j k = map (λ '(i, j, k), node_no nx ny i j k) ps → length ps = 4 → NoDup ps →
       (∀ i j k, (i, j, k) ∈ ps → node_at nx ny nz i j k) →
       (∀ t p q, ps !! t = Some p → ps !! ((t + 1) mod 4) = Some q → step p q) →
       NoDup (corners nx ny d i j k) ∧
     ∃ ps : list (nat * nat * nat), corners nx ny d i j k = map (λ '(i, j, k), node_no nx ny i j k) ps ∧ length ps = 4 ∧
       (∀ i j k, (i, j, k) ∈ ps → node_at nx ny nz i j k) ∧
       ∀ t p q, ps !! t = Some p → ps !! ((t + 1) mod 4) = Some q → step p q).
    { intros ps E Hl Hnd Hps Hst. split; [|by exists ps]. rewrite E. by apply HN. }
    destruct Hat as (Hi & Hj & Hk).
    destruct d; simpl at_dir in *;
      [apply (W [(i,j,k);(i,j+1,k);(i,j+1,k+1);(i,j,k+1)])|apply (W [(i,j,k);(i,j,k+1);(i+1,j,k+1);(i+1,j,k)])|apply (W [(i,j,k);(i+1,j,k);(i+1,j+1,k);(i,j+1,k)])];
      try done.
    all: try (repeat (apply NoDup_cons; split); [..|by apply NoDup_nil]; rewrite ?elem_of_cons, ?elem_of_nil; intros H; naive_solver lia).
    all: try (intros i' j' k' H; rewrite !elem_of_cons, elem_of_nil in H; unfold node_at; naive_solver lia).
    all: intros t p q Hp Hq; do 4 (destruct t as [|t]; [simpl in Hp, Hq; simplify_eq; unfold step; lia|]); done.
Qed.
Print Assumptions C17_corners.

(** A grid of 2 x 1 x 2 cells. *)
Definition junk3 : topo := Topo (replicate 24 9) (replicate 5 9) (replicate 24 9) (replicate 80 9) (replicate 21 9) (replicate 40 9%Z).
Example C17_example : sized3 2 1 2 junk3 ∧
  option_map t_fc (topology3 2 1 2 junk3) = Some
    [-1;0; 0;1; 1;-1; -1;2; 2;3; 3;-1;
     -1;0; -1;1; 0;-1; 1;-1; -1;2; -1;3; 2;-1; 3;-1;
     -1;0; -1;1; 0;2; 1;3; 2;-1; 3;-1]%Z.
Proof. split; [done|vm_compute; done]. Qed.

(** ** C18: two dimensions *)
From Verif Require Import Cart2Proof.
Theorem C18_numbering nx ny :
  (∀ i j, cell2_at nx ny i j → cell2_no nx i j < ncells2 nx ny) ∧
  (∀ c, c < ncells2 nx ny → ∃ i j, cell2_at nx ny i j ∧ c = cell2_no nx i j) ∧
  (∀ i j i' j', cell2_at nx ny i j → cell2_at nx ny i' j' → cell2_no nx i j = cell2_no nx i' j' → i = i' ∧ j = j') ∧
  (∀ d i j, face2_at nx ny d i j → face2_no nx ny d i j < nfaces2 nx ny) ∧
  (∀ f, f < nfaces2 nx ny → ∃ d i j, face2_at nx ny d i j ∧ f = face2_no nx ny d i j) ∧
  (∀ d i j d' i' j', face2_at nx ny d i j → face2_at nx ny d' i' j' →
     face2_no nx ny d i j = face2_no nx ny d' i' j' → d = d' ∧ i = i' ∧ j = j') ∧
  (∀ i j, node2_at nx ny i j → node2_no nx i j < nnodes2 nx ny) ∧
  (∀ c, c < nnodes2 nx ny → ∃ i j, node2_at nx ny i j ∧ c = node2_no nx i j) ∧
  (∀ i j i' j', node2_at nx ny i j → node2_at nx ny i' j' → node2_no nx i j = node2_no nx i' j' → i = i' ∧ j = j').
Proof.
  split_and!; [apply cell2_lt|apply cell2_surj|apply cell2_inj|apply face2_lt|apply face2_surj|apply face2_inj|apply node2_lt|apply node2_surj|apply node2_inj].
Qed.
Theorem C18_topology nx ny m :
  0 < nx → 0 < ny → sized2 nx ny m →
  ∃ t cf, topology2 nx ny m = Some t ∧ sized2 nx ny t ∧
    let g := ugrid_of (ncells2 nx ny) (nfaces2 nx ny) t in
    grid_ok g cf ∧
    (∀ f a b, face_between g f a b → ¬ (a = -1 ∧ b = -1)%Z) ∧
    (∀ i j, cell2_at nx ny i j →
       cf !! cell2_no nx i j = Some (faces2_of nx ny i j) ∧
       slice (t_tag t) (4 * cell2_no nx i j) 4 = Some [0;2;1;3]) ∧
    (∀ d i j, face2_at nx ny d i j →
       let f := face2_no nx ny d i j in
       face_between g f (below2 nx d i j) (above2 nx ny i j) ∧
       t_fnpos t !! f = Some (2 * f) ∧ t_fnpos t !! S f = Some (2 * f + 2) ∧
       slice (t_fn t) (2 * f) 2 = Some (ends2 nx d i j)).
Proof.
  intros Hx Hy Hm. exists (the_topo2 nx ny), (rows2 nx ny). split; [by apply topology2_ok|].
  split.
  { unfold sized2. cbn [the_topo2 t_cf t_cfpos t_tag t_fn t_fnpos t_fc]. rewrite nodes2_length, fcells2_length.
    rewrite (flat2_length _ _ 4) by done. rewrite (flat_length _ _ 4) by done.
    unfold multiples. rewrite !map_length, !seq_length. done. }
  intros g. split; [by apply cart2_ok|]. split_and!.
  - intros f a b Hab [-> ->].
    assert (Hf : f < nfaces2 nx ny).
    { destruct Hab as [_ H]. apply lookup_lt_Some in H. cbn in H. rewrite fcells2_length in H. lia. }
    destruct (face2_surj nx ny f Hf) as (d & i & j & Hat & ->). destruct (between2 nx ny Hx Hy _ _ _ Hat) as [B1 B2].
    destruct Hab as [A1 A2]. cbn in A1, A2, B1, B2. rewrite A1 in B1. rewrite A2 in B2. injection B1 as B1. injection B2 as B2.
    unfold above2 in B2. destruct (decide (cell2_at nx ny i j)) as [Hc|Hc]; [lia|]. apply Hc. clear Hc.
    unfold cell2_at. destruct d; destruct Hat as (Hi & Hj); cbn [below2] in B1.
    + destruct j; [lia|]. lia.
    + destruct i; [lia|]. lia.
  - intros i j Hat. split; [by apply rows2_lookup|]. pose proof (cell2_lt _ _ _ _ Hat).
    apply slice_pointwise; [done|]. intros t Ht. cbn [the_topo2 t_tag]. rewrite (flat_lookup _ _ 4); done.
  - intros d i j Hat. cbv zeta. pose proof (face2_lt _ _ _ _ _ Hat). split_and!.
    + by apply between2.
    + cbn [the_topo2 t_fnpos]. rewrite multiples_lookup by lia. done.
    + cbn [the_topo2 t_fnpos]. rewrite multiples_lookup by lia. f_equal. lia.
    + by apply nodes2_slice.
Qed.
Print Assumptions C18_topology.
Definition junk2 : topo := Topo (replicate 16 9) (replicate 5 9) (replicate 16 9) (replicate 24 9) (replicate 13 9) (replicate 24 9%Z).
Example C18_example : sized2 2 2 junk2 ∧
  option_map t_fc (topology2 2 2 junk2) = Some [-1;0; 0;1; 1;-1; -1;2; 2;3; 3;-1; -1;0; -1;1; 0;2; 1;3; 2;-1; 3;-1]%Z ∧
  option_map t_fn (topology2 2 2 junk2) = Some [0;3;1;4;2;5;3;6;4;7;5;8; 1;0;2;1;4;3;5;4;7;6;8;7].
Proof. split; [done|split; vm_compute; done]. Qed.
