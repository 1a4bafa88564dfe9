(** Topology of Cartesian grids in two dimensions. *)
From Verif Require Import Base LoopModel LoopProof CartModel CartSpec CartProof GridModel GridSpec CsrSpec CsrProof.

Definition flat2 {T} (A B : nat) (ch : nat → nat → list T) : list T := flat B (λ j, flat A (λ i, ch i j)).
Section flat2.
Context {T : Type} (A B L : nat) (ch : nat → nat → list T).
Hypothesis Hch : ∀ i j, i < A → j < B → length (ch i j) = L.
Lemma flat2_length : length (flat2 A B ch) = A * B * L.
Proof.
  unfold flat2. rewrite (flat_length _ _ (A * L)); [nia|]. intros j Hj.
  rewrite (flat_length _ _ L); [done|]. intros i Hi. by apply Hch.
Qed.
Lemma flat2_lookup i j t : i < A → j < B → t < L → flat2 A B ch !! (L * (i + A * j) + t) = ch i j !! t.
Proof.
  intros Hi Hj Ht. unfold flat2. replace (L * (i + A * j) + t) with ((A * L) * j + (L * i + t)) by nia.
  assert (L * i + t < A * L) by nia.
  rewrite (flat_lookup _ _ (A * L)); [|clear H|done|done].
  2:{ intros j' Hj'. rewrite (flat_length _ _ L); [done|]. intros i' Hi'. by apply Hch. }
  exact (flat_lookup A (λ i, ch i j) L i t (λ i' Hi', Hch i' j Hi' Hj) Hi Ht).
Qed.
End flat2.
Definition nest2 {S} (A B : nat) (body : nat → nat → S → option S) (s : S) : option S :=
  for_loop B 0 (λ j, for_loop A 0 (λ i, body i j)) s.
Lemma nest2_ext {S} A B (f h : nat → nat → S → option S) s :
  (∀ i j s, i < A → j < B → f i j s = h i j s) → nest2 A B f s = nest2 A B h s.
Proof.
  intros H. unfold nest2. apply for_loop_ext. intros j s2 Hj. apply for_loop_ext. intros i s3 Hi. apply H; lia.
Qed.
Lemma nest2_par {S T} A B (f : nat → nat → S → option S) (h : nat → nat → T → option T) s :
  nest2 A B (λ i j, par (f i j) (h i j)) s = par (nest2 A B f) (nest2 A B h) s.
Proof. unfold nest2. rewrite <- for_loop_par. apply for_loop_ext. intros j s2 _. by rewrite <- for_loop_par. Qed.
Lemma nest2_puts {T} A B (ch : nat → nat → list T) s : nest2 A B (λ i j s, puts s (ch i j)) s = puts s (flat2 A B ch).
Proof. unfold nest2, flat2. rewrite <- for_loop_puts0. apply for_loop_ext. intros j s2 _. apply for_loop_puts0. Qed.
Lemma nest2_const {S} A B (f : S → option S) s : nest2 A B (λ _ _, f) s = for_loop (A * B) 0 (λ _, f) s.
Proof. unfold nest2. rewrite Nat.mul_comm. rewrite <- (for_loop_const B A 0 0 f s). done. Qed.

Section d2.
Variables nx ny : nat.
Definition ch2 i j : list nat := [ i + (nx+1) * j; i + nx * j + (nx+1) * ny; i + 1 + (nx+1) * j; i + nx * (j + 1) + (nx+1) * ny ].
Definition fx2 i j := fcells_entry i nx (Z.of_nat i - 1 + Z.of_nat nx * Z.of_nat j) (Z.of_nat i + Z.of_nat nx * Z.of_nat j).
Definition fy2 i j := fcells_entry j ny (Z.of_nat i + Z.of_nat nx * (Z.of_nat j - 1)) (Z.of_nat i + Z.of_nat nx * Z.of_nat j).
Lemma cells2_ok s : cells2 nx ny s = par (λ s, puts s (flat2 nx ny ch2)) (for_loop (nx * ny) 0 (λ _, bump 4)) s.
Proof.
  transitivity (nest2 nx ny (λ i j, par (λ s, puts s (ch2 i j)) (bump 4)) s).
  { apply (nest2_ext nx ny). intros i j [a b] _ _. done. }
  rewrite nest2_par. apply par_ext; [apply nest2_puts|apply nest2_const].
Qed.
Lemma tags2_ok tag : length tag = nx * ny * 4 → tags2 nx ny tag = Some (flat (nx * ny) (λ _, [0;2;1;3])).
Proof.
  intros Hl. unfold tags2. set (n := nx * ny) in *.
  destruct (for_loop_inv (λ k tag', length tag' = length tag ∧ ∀ c t, c < k → t < 4 → tag' !! (4 * c + t) = [0;2;1;3] !! t) n 0
     (λ j tag, tag ← upd tag (j * 4 + 0) 0; tag ← upd tag (j * 4 + 1) 2; tag ← upd tag (j * 4 + 2) 1; upd tag (j * 4 + 3) 3) tag) as (tag' & E & Hl' & Hv).
  - split; [done|]. intros. lia.
  - intros k t1 Hk [Hl1 Hv1].
    assert (Hf : (tag ← upd t1 (k * 4 + 0) 0; tag ← upd tag (k * 4 + 1) 2; tag ← upd tag (k * 4 + 2) 1; upd tag (k * 4 + 3) 3) =
      for_loop (length [0;2;1;3]) 0 (λ i l, v ← [0;2;1;3] !! i; upd l (k * 4 + i) v) t1).
    { cbn [length for_loop]. cbn. destruct (upd t1 (k * 4 + 0) 0) as [a|]; [|done]. cbn. destruct (upd a (k * 4 + 1) 2) as [b|]; [|done]. cbn.
      destruct (upd b (k * 4 + 2) 1) as [c|]; [|done]. cbn. by destruct (upd c (k * 4 + 3) 3). }
    rewrite Hf, upd_run by (simpl; lia). eexists. split; [done|]. split.
    + rewrite !app_length, take_length, drop_length. simpl. lia.
    + intros c t Hc Ht. destruct (decide (c = k)) as [->|].
      * rewrite lookup_app_r by (rewrite take_length; lia). rewrite take_length.
        rewrite lookup_app_l by (simpl; lia). f_equal. lia.
      * rewrite lookup_app_l by (rewrite take_length; lia). rewrite lookup_take by lia. apply Hv1; lia.
  - rewrite E. f_equal. apply list_eq. intros p.
    assert (Hfl : length (flat n (λ _ : nat, [0;2;1;3])) = n * 4) by (apply flat_length; done).
    destruct (decide (p < n * 4)) as [Hp|Hp].
    + rewrite (Nat.div_mod p 4) by lia. assert (p mod 4 < 4) by (by apply Nat.mod_upper_bound).
      assert (p / 4 < n) by (apply Nat.div_lt_upper_bound; lia).
      rewrite Hv by lia. rewrite (flat_lookup n _ 4); done.
    + rewrite !lookup_ge_None_2; [done|lia|lia].
Qed.
Lemma xfaces2_ok s : xfaces2 nx ny s = par (par (λ s, puts s (flat2 (nx+1) ny (ends2 nx false))) (for_loop ((nx+1) * ny) 0 (λ _, bump 2)))
    (λ s, puts s (flat2 (nx+1) ny fx2)) s.
Proof.
  transitivity (nest2 (nx+1) ny (λ i j, par (par (λ s, puts s (ends2 nx false i j)) (bump 2)) (λ s, puts s (fx2 i j))) s).
  { apply (nest2_ext (nx+1) ny). intros i j [[a b] c] _ _. unfold par. cbn [fst snd]. unfold ends2, node2_no.
    destruct (puts a _); [|done]. cbn [mbind option_bind]. by destruct (bump 2 b). }
  rewrite nest2_par. apply par_ext; [|apply nest2_puts]. rewrite nest2_par. apply par_ext; [apply nest2_puts|apply nest2_const].
Qed.
Lemma yfaces2_ok s : yfaces2 nx ny s = par (par (λ s, puts s (flat2 nx (ny+1) (ends2 nx true))) (for_loop (nx * (ny+1)) 0 (λ _, bump 2)))
    (λ s, puts s (flat2 nx (ny+1) fy2)) s.
Proof.
  transitivity (nest2 nx (ny+1) (λ i j, par (par (λ s, puts s (ends2 nx true i j)) (bump 2)) (λ s, puts s (fy2 i j))) s).
  { apply (nest2_ext nx (ny+1)). intros i j [[a b] c] _ _. unfold par. cbn [fst snd]. unfold ends2, node2_no.
    destruct (puts a _); [|done]. cbn [mbind option_bind]. by destruct (bump 2 b). }
  rewrite nest2_par. apply par_ext; [|apply nest2_puts]. rewrite nest2_par. apply par_ext; [apply nest2_puts|apply nest2_const].
Qed.
Definition nodes2 := flat2 (nx+1) ny (ends2 nx false) ++ flat2 nx (ny+1) (ends2 nx true).
Definition fcells2 := flat2 (nx+1) ny fx2 ++ flat2 nx (ny+1) fy2.
Lemma nodes2_length : length nodes2 = nfaces2 nx ny * 2.
Proof. unfold nodes2, nfaces2. rewrite app_length, (flat2_length _ _ 2), (flat2_length _ _ 2) by done. lia. Qed.
Lemma fcells2_length : length fcells2 = 2 * nfaces2 nx ny.
Proof.
  unfold fcells2, nfaces2. rewrite app_length, (flat2_length _ _ 2), (flat2_length _ _ 2) by (intros; apply fcells_entry_length). lia.
Qed.
Definition the_topo2 : topo := Topo (flat2 nx ny ch2) (multiples 4 (ncells2 nx ny)) (flat (ncells2 nx ny) (λ _, [0;2;1;3]))
    nodes2 (multiples 2 (nfaces2 nx ny)) fcells2.
Lemma topology2_ok m : sized2 nx ny m → topology2 nx ny m = Some the_topo2.
Proof.
  intros (H1 & H2 & H3 & H4 & H5 & H6). unfold topology2, the_topo2, ncells2 in *.
  rewrite (upd_Some (t_cfpos m)) by lia. cbn [mbind option_bind]. rewrite cells2_ok. unfold par at 1. cbn [fst snd].
  rewrite puts_open by (rewrite (flat2_length _ _ 4) by done; lia). cbn [mbind option_bind].
  rewrite bumps_open; [|by rewrite insert_length|apply list_lookup_insert; lia]. cbn [mbind option_bind].
  rewrite tags2_ok by lia. cbn [mbind option_bind].
  rewrite upd_Some by lia. cbn [mbind option_bind].
  set (s0 := (open (t_fn m), open (<[0:=0]> (t_fnpos m)), open (t_fc m))).
  assert (E : (s ← xfaces2 nx ny s0; yfaces2 nx ny s) =
    Some (Stream nodes2 (length (t_fn m)), Stream (multiples 2 (nfaces2 nx ny)) (nfaces2 nx ny), Stream fcells2 (length (t_fc m)))).
  { rewrite xfaces2_ok.
    transitivity (s ← par (par (λ s, puts s (flat2 (nx+1) ny (ends2 nx false))) (for_loop ((nx+1) * ny) 0 (λ _, bump 2)))
       (λ s, puts s (flat2 (nx+1) ny fx2)) s0;
       par (par (λ s, puts s (flat2 nx (ny+1) (ends2 nx true))) (for_loop (nx * (ny+1)) 0 (λ _, bump 2)))
       (λ s, puts s (flat2 nx (ny+1) fy2)) s).
    { destruct (par _ _ s0) as [s1|]; [|done]. cbn [mbind option_bind]. apply yfaces2_ok. }
    rewrite par_seq. unfold par at 1. unfold s0. cbn [fst snd].
    assert (E1 : ∀ s : stream nat * stream nat,
      (s ← par (λ s, puts s (flat2 (nx+1) ny (ends2 nx false))) (for_loop ((nx+1) * ny) 0 (λ _, bump 2)) s;
        par (λ s, puts s (flat2 nx (ny+1) (ends2 nx true))) (for_loop (nx * (ny+1)) 0 (λ _, bump 2)) s)
      = par (λ s, puts s nodes2) (for_loop (nfaces2 nx ny) 0 (λ _, bump 2)) s).
    { intros s. rewrite par_seq. apply par_ext.
      - unfold nodes2. by rewrite puts_app.
      - unfold nfaces2. by rewrite <- bumps_app. }
    rewrite E1. unfold par. cbn [fst snd]. rewrite (puts_open nodes2) by (rewrite nodes2_length; lia). cbn [mbind option_bind].
    rewrite bumps_open; [|by rewrite insert_length|apply list_lookup_insert; lia]. cbn [mbind option_bind].
    assert (E2 : ∀ s : stream Z, (s ← puts s (flat2 (nx+1) ny fx2); puts s (flat2 nx (ny+1) fy2)) = puts s fcells2).
    { intros s. unfold fcells2. by rewrite puts_app. }
    rewrite E2. rewrite puts_open by (rewrite fcells2_length; lia). done. }
  destruct (xfaces2 nx ny s0) as [s1|]; [|done]. cbn [mbind option_bind] in E |- *. rewrite E. done.
Qed.

Notation cell := (cell2_no nx).
Notation node := (node2_no nx).
Notation face := (face2_no nx ny).
Notation cell_at := (cell2_at nx ny).
Notation face_at := (face2_at nx ny).
Lemma pair_lt A B i j : i < A → j < B → i + A * j < A * B.
Proof. nia. Qed.
Lemma pair_surj A B c : c < A * B → ∃ i j, i < A ∧ j < B ∧ c = i + A * j.
Proof.
  intros H. assert (A ≠ 0) by (intros ->; lia). exists (c mod A), (c / A). split_and!.
  - by apply Nat.mod_upper_bound.
  - by apply Nat.div_lt_upper_bound.
  - pose proof (Nat.div_mod c A). lia.
Qed.
Lemma cell2_lt i j : cell_at i j → cell i j < ncells2 nx ny.
Proof. intros [Hi Hj]. by apply pair_lt. Qed.
Lemma cell2_inj i j i' j' : cell_at i j → cell_at i' j' → cell i j = cell i' j' → i = i' ∧ j = j'.
Proof. intros [Hi Hj] [Hi' Hj'] H. by apply (pair_inj nx). Qed.
Lemma cell2_surj c : c < ncells2 nx ny → ∃ i j, cell_at i j ∧ c = cell i j.
Proof. intros H. destruct (pair_surj _ _ _ H) as (i & j & Hi & Hj & ->). by exists i, j. Qed.
Lemma node2_lt i j : node2_at nx ny i j → node i j < nnodes2 nx ny.
Proof. intros [Hi Hj]. apply pair_lt; lia. Qed.
Lemma node2_inj i j i' j' : node2_at nx ny i j → node2_at nx ny i' j' → node i j = node i' j' → i = i' ∧ j = j'.
Proof. intros [Hi Hj] [Hi' Hj'] H. apply (pair_inj (nx+1)); [lia|lia|done]. Qed.
Lemma node2_surj c : c < nnodes2 nx ny → ∃ i j, node2_at nx ny i j ∧ c = node i j.
Proof. intros H. destruct (pair_surj _ _ _ H) as (i & j & Hi & Hj & ->). exists i, j. split; [|done]. unfold node2_at. lia. Qed.
Lemma face2_bound d i j : face_at d i j →
  if d then (nx + 1) * ny ≤ face d i j < nfaces2 nx ny else face d i j < (nx + 1) * ny.
Proof.
  destruct d; intros [Hi Hj]; simpl; unfold nfaces2.
  - pose proof (pair_lt nx (ny+1) i j Hi Hj). lia.
  - pose proof (pair_lt (nx+1) ny i j Hi Hj). lia.
Qed.
Lemma face2_lt d i j : face_at d i j → face d i j < nfaces2 nx ny.
Proof. intros H. apply face2_bound in H. unfold nfaces2 in *. destruct d; lia. Qed.
Lemma face2_inj d i j d' i' j' : face_at d i j → face_at d' i' j' → face d i j = face d' i' j' → d = d' ∧ i = i' ∧ j = j'.
Proof.
  intros H H' E. pose proof (face2_bound _ _ _ H) as B. pose proof (face2_bound _ _ _ H') as B'.
  destruct d, d'; destruct H as [Hi Hj], H' as [Hi' Hj']; try (exfalso; lia); (split; [done|]); simpl in E.
  - apply (pair_inj nx); lia.
  - apply (pair_inj (nx+1)); lia.
Qed.
Lemma face2_surj f : f < nfaces2 nx ny → ∃ d i j, face_at d i j ∧ f = face d i j.
Proof.
  unfold nfaces2. intros H. destruct (decide (f < (nx + 1) * ny)) as [H1|H1].
  - destruct (pair_surj _ _ _ H1) as (i & j & Hi & Hj & ->). by exists false, i, j.
  - destruct (pair_surj nx (ny+1) (f - (nx + 1) * ny)) as (i & j & Hi & Hj & E); [lia|].
    exists true, i, j. split; [done|]. simpl. lia.
Qed.
Lemma faces2_lookup {T} L (cx cy : nat → nat → list T) d i j t :
  (∀ i j, length (cx i j) = L) → (∀ i j, length (cy i j) = L) → face_at d i j → t < L →
  (flat2 (nx+1) ny cx ++ flat2 nx (ny+1) cy) !! (L * face d i j + t) = (if d then cy i j else cx i j) !! t.
Proof.
  intros Lx Ly Hat Ht. pose proof (face2_bound _ _ _ Hat) as B.
  assert (E1 : length (flat2 (nx+1) ny cx) = L * ((nx+1) * ny)) by (rewrite (flat2_length _ _ L) by auto; lia).
  destruct d; destruct Hat as [Hi Hj].
  - rewrite lookup_app_r by (rewrite E1; nia). rewrite E1.
    replace (L * face true i j + t - L * ((nx + 1) * ny)) with (L * (i + nx * j) + t).
    { apply (flat2_lookup nx (ny+1) L); auto. }
    assert (G : ∀ a n, L * n + t = L * (a + n) + t - L * a) by (intros; lia). apply G.
  - rewrite lookup_app_l by (rewrite E1; nia). apply (flat2_lookup (nx+1) ny L); auto.
Qed.
Lemma chunk2_eq i j : ch2 i j = faces2_of nx ny i j.
Proof.
  assert (C : ∀ a b c d a' b' c' d' : nat, a = a' → b = b' → c = c' → d = d' → [a;b;c;d] = [a';b';c';d']) by congruence.
  unfold ch2, faces2_of, face2_no. apply C; lia.
Qed.
Lemma nodes2_slice d i j : face_at d i j → slice nodes2 (2 * face d i j) 2 = Some (ends2 nx d i j).
Proof.
  intros H. apply slice_pointwise; [by destruct d|]. intros t Ht. unfold nodes2.
  rewrite (faces2_lookup 2); [|done..]. by destruct d.
Qed.
Lemma cell2_slice i j : cell_at i j → slice (t_cf the_topo2) (4 * cell i j) 4 = Some (faces2_of nx ny i j).
Proof.
  intros [Hi Hj]. apply slice_pointwise; [done|]. intros t Ht. cbn [the_topo2 t_cf].
  rewrite <- chunk2_eq. by apply (flat2_lookup nx ny 4).
Qed.
Definition rows2 : list (list nat) := flat2 nx ny (λ i j, [faces2_of nx ny i j]).
Lemma rows2_length : length rows2 = ncells2 nx ny.
Proof. unfold rows2. rewrite (flat2_length _ _ 1) by done. unfold ncells2. lia. Qed.
Lemma rows2_lookup i j : cell_at i j → rows2 !! cell i j = Some (faces2_of nx ny i j).
Proof.
  intros [Hi Hj]. unfold rows2.
  pose proof (flat2_lookup nx ny 1 (λ i j, [faces2_of nx ny i j]) ltac:(done) i j 0 Hi Hj ltac:(lia)) as H.
  rewrite Nat.mul_1_l, Nat.add_0_r in H. done.
Qed.
Lemma rows2_inv c r : rows2 !! c = Some r → ∃ i j, cell_at i j ∧ c = cell i j ∧ r = faces2_of nx ny i j.
Proof.
  intros H. pose proof (lookup_lt_Some _ _ _ H) as Hlt. rewrite rows2_length in Hlt.
  destruct (cell2_surj c Hlt) as (i & j & Hat & ->). exists i, j. split_and!; [done|done|].
  rewrite rows2_lookup in H by done. by simplify_eq.
Qed.
Lemma faces2_valid i j f : cell_at i j → f ∈ faces2_of nx ny i j →
  ∃ d i' j', face_at d i' j' ∧ f = face d i' j' ∧
    if d : bool then i' = i ∧ (j' = j ∨ j' = j + 1) else (i' = i ∨ i' = i + 1) ∧ j' = j.
Proof.
  intros (Hi & Hj) Hf. unfold faces2_of in Hf. unfold face2_at.
  repeat (apply elem_of_cons in Hf as [->|Hf]); [..|by apply elem_of_nil in Hf].
  - exists false, i, j. split_and!; [lia..|done|tauto|done].
  - exists true, i, j. split_and!; [lia..|done|done|tauto].
  - exists false, (i+1), j. split_and!; [lia..|done|tauto|done].
  - exists true, i, (j+1). split_and!; [lia..|done|done|tauto].
Qed.
Lemma below2_cell d i j : face_at d i j → below2 nx d i j = (-1)%Z ∨
  ∃ i' j', cell_at i' j' ∧ below2 nx d i j = Z.of_nat (cell i' j') ∧ (if d then i = i' ∧ j = j' + 1 else i = i' + 1 ∧ j = j').
Proof.
  unfold cell2_at. destruct d; intros [Hi Hj]; cbn [below2].
  - destruct j as [|j]; [by left|right]. exists i, j. split_and!; lia.
  - destruct i as [|i]; [by left|right]. exists i, j. split_and!; lia.
Qed.
Lemma above2_cell i j : above2 nx ny i j = (-1)%Z ∨ cell_at i j ∧ above2 nx ny i j = Z.of_nat (cell i j).
Proof. unfold above2. destruct (decide _); [right|left]; done. Qed.

Hypotheses (Hx : 0 < nx) (Hy : 0 < ny).
Lemma fcells2_pair d i j : face_at d i j → (if d then fy2 i j else fx2 i j) = [below2 nx d i j; above2 nx ny i j].
Proof.
  unfold above2. destruct d; intros [Hi Hj].
  - unfold fy2, fcells_entry. destruct j as [|j]; cbn [below2].
    + rewrite (decide_True (P := 0 = 0)) by done. rewrite decide_True by (split_and!; lia). unfold cell2_no. f_equal. f_equal. lia.
    + rewrite (decide_False (P := S j = 0)) by lia. destruct (decide (S j = ny)) as [E|E].
      * rewrite decide_False by (unfold cell2_at; lia). f_equal. unfold cell2_no. lia.
      * rewrite decide_True by (unfold cell2_at; lia). unfold cell2_no. f_equal; [lia|]. f_equal. lia.
  - unfold fx2, fcells_entry. destruct i as [|i]; cbn [below2].
    + rewrite (decide_True (P := 0 = 0)) by done. rewrite decide_True by (split_and!; lia). unfold cell2_no. f_equal. f_equal. lia.
    + rewrite (decide_False (P := S i = 0)) by lia. destruct (decide (S i = nx)) as [E|E].
      * rewrite decide_False by (unfold cell2_at; lia). f_equal. unfold cell2_no. lia.
      * rewrite decide_True by (unfold cell2_at; lia). unfold cell2_no. f_equal; [lia|]. f_equal. lia.
Qed.
Notation g := (ugrid_of (ncells2 nx ny) (nfaces2 nx ny) the_topo2).
Lemma between2 d i j : face_at d i j → face_between g (face d i j) (below2 nx d i j) (above2 nx ny i j).
Proof.
  intros H. pose proof (fcells2_pair _ _ _ H) as E. unfold face_between. cbn [u_facecells ugrid_of the_topo2 t_fc].
  assert (HL : ∀ t, t < 2 → fcells2 !! (2 * face d i j + t) = [below2 nx d i j; above2 nx ny i j] !! t).
  { intros t Ht. unfold fcells2. rewrite (faces2_lookup 2); [by rewrite E|intros; apply fcells_entry_length..|done|done]. }
  split; [rewrite <- (Nat.add_0_r (2 * _))|]; rewrite HL by lia; done.
Qed.
Lemma cart2_ok : grid_ok g rows2.
Proof.
  split.
  - apply rows2_length.
  - cbn [u_facepos u_cellfaces ugrid_of]. split_and!.
    + cbn [the_topo2 t_cfpos]. unfold multiples. rewrite map_length, seq_length, rows2_length. lia.
    + cbn [the_topo2 t_cfpos]. rewrite multiples_lookup by lia. done.
    + cbn [the_topo2 t_cfpos t_cf]. rewrite rows2_length, multiples_lookup by lia.
      rewrite (flat2_length _ _ 4) by done. unfold ncells2. f_equal. lia.
    + intros c r Hr. apply rows2_inv in Hr as (i & j & Hat & -> & ->). pose proof (cell2_lt _ _ Hat).
      exists (4 * cell i j), (4 * S (cell i j)). cbn [the_topo2 t_cfpos]. rewrite !multiples_lookup by lia.
      split_and!; [done|done|lia|]. replace (4 * S (cell i j) - 4 * cell i j) with 4 by lia. by apply cell2_slice.
  - apply fcells2_length.
  - intros f a b Hab.
    assert (Hf : f < nfaces2 nx ny).
    { destruct Hab as [_ H]. apply lookup_lt_Some in H. cbn in H. rewrite fcells2_length in H. lia. }
    destruct (face2_surj f Hf) as (d & i & j & Hat & ->). pose proof (between2 _ _ _ Hat) as Hb.
    destruct Hab as [A1 A2], Hb as [B1 B2]. rewrite A1 in B1. rewrite A2 in B2. injection B1 as ->. injection B2 as ->.
    cbn [u_nc ugrid_of].
    destruct (below2_cell _ _ _ Hat) as [E1|(i' & j' & Hat' & E1 & Hc)]; destruct (above2_cell i j) as [E2|[Hat2 E2]]; rewrite E1, E2.
    + split_and!; lia.
    + pose proof (cell2_lt _ _ Hat2). split_and!; lia.
    + pose proof (cell2_lt _ _ Hat'). split_and!; lia.
    + pose proof (cell2_lt _ _ Hat'). pose proof (cell2_lt _ _ Hat2). split_and!; try lia. intros E. exfalso.
      assert (E' : cell i' j' = cell i j) by lia. apply cell2_inj in E'; [|done|done]. destruct d; lia.
  - intros c r Hr. apply rows2_inv in Hr as (i & j & (Hi & Hj) & -> & ->).
    assert (D : ∀ d i j d' i' j', face_at d i j → face_at d' i' j' → ¬ (d = d' ∧ i = i' ∧ j = j') → face d i j ≠ face d' i' j').
    { intros d1 i1 j1 d2 i2 j2 H1 H2 Hn E. apply Hn. by apply face2_inj. }
    unfold faces2_of. repeat (apply NoDup_cons; split); [..|by apply NoDup_nil]; rewrite ?not_elem_of_cons;
      repeat split; try (apply not_elem_of_nil);
      (apply D; [unfold face2_at; lia|unfold face2_at; lia|]); intros (? & ? & ?); try discriminate; lia.
  - intros c r f Hr. apply rows2_inv in Hr as (i & j & Hat & -> & ->). split.
    + intros Hf. destruct (faces2_valid _ _ _ Hat Hf) as (d & i' & j' & Hfa & -> & Hc).
      exists (below2 nx d i' j'), (above2 nx ny i' j'). split; [by apply between2|].
      destruct (decide (i' = i ∧ j' = j)) as [(-> & ->)|Hne].
      * right. unfold above2. by rewrite decide_True.
      * left. destruct d; cbn [below2].
        -- assert (j' = S j) as -> by lia. destruct Hc as [-> _]. done.
        -- assert (i' = S i) as -> by lia. destruct Hc as [_ ->]. done.
    + intros (a & b & Hab & Hor).
      assert (Hf : f < nfaces2 nx ny).
      { destruct Hab as [_ H]. apply lookup_lt_Some in H. cbn in H. rewrite fcells2_length in H. lia. }
      destruct (face2_surj f Hf) as (d & i' & j' & Hfa & ->). pose proof (between2 _ _ _ Hfa) as Hb.
      destruct Hab as [A1 A2], Hb as [B1 B2]. rewrite A1 in B1. rewrite A2 in B2. injection B1 as ->. injection B2 as ->.
      unfold faces2_of. rewrite !elem_of_cons.
      destruct Hor as [Hor|Hor].
      * destruct (below2_cell _ _ _ Hfa) as [E1|(i1 & j1 & Hat' & E1 & Hc)]; [lia|].
        assert (E' : cell i1 j1 = cell i j) by lia. apply cell2_inj in E' as (-> & ->); [|done|done].
        destruct d; destruct Hc as (-> & ->); tauto.
      * destruct (above2_cell i' j') as [E2|[Hat2 E2]]; [lia|].
        assert (E' : cell i' j' = cell i j) by lia. apply cell2_inj in E' as (-> & ->); [|done|done].
        destruct d; tauto.
Qed.
End d2.
