(** What the loops of cart_grid.c write. *)
From Coq Require Import Reals Lra.
From Verif Require Import Base LoopModel LoopProof CartModel.

(** The contents of an array position by position, tags. *)
Lemma upd_run {A} (l : list A) b vs : b + length vs ≤ length l →
  for_loop (length vs) 0 (λ i l, v ← vs !! i; upd l (b + i) v) l = Some (take b l ++ vs ++ drop (b + length vs) l).
Proof.
  intros Hb.
  destruct (for_loop_inv (λ i l', length l' = length l ∧ ∀ t, l' !! t = if decide (b ≤ t < b + i) then vs !! (t - b) else l !! t)
     (length vs) 0 (λ i l, v ← vs !! i; upd l (b + i) v) l) as (l' & E & Hl & Hv).
  - split; [done|]. intros t. by rewrite decide_False by lia.
  - intros i l1 Hi [Hl Hv]. destruct (lookup_lt_is_Some_2 vs i) as [v Hvi]; [lia|]. rewrite Hvi. cbn [mbind option_bind].
    rewrite upd_Some by lia. eexists. split; [done|]. split; [by rewrite insert_length|].
    intros t. destruct (decide (t = b + i)) as [->|Hne].
    + rewrite list_lookup_insert by lia. rewrite decide_True by lia. by replace (b + i - b) with i by lia.
    + rewrite list_lookup_insert_ne by lia. rewrite Hv.
      destruct (decide (b ≤ t < b + i)), (decide (b ≤ t < b + (i + 1))); try done; lia.
  - rewrite E. f_equal. apply list_eq. intros t. rewrite Hv.
    destruct (decide (b ≤ t < b + (0 + length vs))) as [H|H].
    + rewrite lookup_app_r by (rewrite take_length; lia). rewrite take_length. rewrite lookup_app_l by lia. f_equal. lia.
    + destruct (decide (t < b)).
      * rewrite lookup_app_l by (rewrite take_length; lia). by rewrite lookup_take by lia.
      * rewrite lookup_app_r by (rewrite take_length; lia). rewrite take_length. rewrite lookup_app_r by lia.
        rewrite lookup_drop. f_equal. lia.
Qed.


Section d3.
Variables nx ny nz : nat.
Notation nxf := ((nx + 1) * ny * nz).
Notation nyf := (nx * (ny + 1) * nz).
Definition chc i j k : list nat :=
  [ i + (nx+1) * (j + ny * k); i + 1 + (nx+1) * (j + ny * k);
    i + nx * (j + (ny+1) * k) + nxf; i + nx * (j + 1 + (ny+1) * k) + nxf;
    i + nx * (j + ny * k) + nxf + nyf; i + nx * (j + ny * (k + 1)) + nxf + nyf ].
Definition nd i j k : nat := i + (nx+1) * (j + (ny+1) * k).
Definition chx i j k := [nd i j k; nd i (j+1) k; nd i (j+1) (k+1); nd i j (k+1)].
Definition chy i j k := [nd i j k; nd i j (k+1); nd (i+1) j (k+1); nd (i+1) j k].
Definition chz i j k := [nd i j k; nd (i+1) j k; nd (i+1) (j+1) k; nd i (j+1) k].
Definition fcx i j k := fcells_entry i nx (Z.of_nat i - 1 + Z.of_nat nx * (Z.of_nat j + Z.of_nat ny * Z.of_nat k))
                                            (Z.of_nat i + Z.of_nat nx * (Z.of_nat j + Z.of_nat ny * Z.of_nat k)).
Definition fcy i j k := fcells_entry j ny (Z.of_nat i + Z.of_nat nx * (Z.of_nat j - 1 + Z.of_nat ny * Z.of_nat k))
                                            (Z.of_nat i + Z.of_nat nx * (Z.of_nat j + Z.of_nat ny * Z.of_nat k)).
Definition fcz i j k := fcells_entry k nz (Z.of_nat i + Z.of_nat nx * (Z.of_nat j + Z.of_nat ny * (Z.of_nat k - 1)))
                                            (Z.of_nat i + Z.of_nat nx * (Z.of_nat j + Z.of_nat ny * Z.of_nat k)).

Lemma cells3_ok s : cells3 nx ny nz s = par (λ s, puts s (flat3 nx ny nz chc)) (for_loop (nx * ny * nz) 0 (λ _, bump 6)) s.
Proof.
  transitivity (nest3 nx ny nz (λ i j k, par (λ s, puts s (chc i j k)) (bump 6)) s).
  { apply (nest3_ext nx ny nz). intros i j k [a b] _ _ _. done. }
  rewrite nest3_par. apply par_ext; [apply nest3_puts|apply nest3_const].
Qed.
Lemma tags3_ok tag : length tag = nx * ny * nz * 6 →
  tags3 nx ny nz tag = Some (flat (nx * ny * nz) (λ _, [0;1;2;3;4;5])).
Proof.
  intros Hl. unfold tags3. set (n := nx * ny * nz) in *.
  destruct (for_loop_inv (λ k tag', length tag' = length tag ∧ ∀ c t, c < k → t < 6 → tag' !! (6 * c + t) = Some t) n 0
     (λ k, for_loop 6 0 (λ i tag, upd tag (k * 6 + i) i)) tag) as (tag' & E & Hl' & Hv).
  - split; [done|]. intros. lia.
  - intros k t1 Hk [Hl1 Hv1].
    assert (Hf : for_loop 6 0 (λ i tag, upd tag (k * 6 + i) i) t1 =
      for_loop (length [0;1;2;3;4;5]) 0 (λ i l, v ← [0;1;2;3;4;5] !! i; upd l (k * 6 + i) v) t1).
    { apply for_loop_ext. intros i s Hi. simpl in Hi. do 6 (destruct i as [|i]; [done|]). lia. }
    rewrite Hf, upd_run by (simpl; lia). eexists. split; [done|]. split.
    + rewrite !app_length, take_length, drop_length. simpl. lia.
    + intros c t Hc Ht. destruct (decide (c = k)) as [->|].
      * rewrite lookup_app_r by (rewrite take_length; lia). rewrite take_length.
        rewrite lookup_app_l by (simpl; lia). replace (6 * k + t - (k * 6) `min` length t1) with t by lia.
        do 6 (destruct t as [|t]; [done|]); lia.
      * rewrite lookup_app_l by (rewrite take_length; lia). rewrite lookup_take by lia. apply Hv1; lia.
  - rewrite E. f_equal. apply list_eq. intros p.
    assert (Hfl : length (flat n (λ _ : nat, [0;1;2;3;4;5])) = n * 6) by (apply flat_length; done).
    destruct (decide (p < n * 6)) as [Hp|Hp].
    + rewrite (Nat.div_mod p 6) by lia. assert (p mod 6 < 6) by (by apply Nat.mod_upper_bound).
      assert (p / 6 < n) by (apply Nat.div_lt_upper_bound; lia).
      rewrite Hv by lia. rewrite (flat_lookup n _ 6); [|done|done|done].
      destruct (p mod 6) as [|[|[|[|[|[|q]]]]]]; try done. lia.
    + rewrite !lookup_ge_None_2; [done|lia|lia].
Qed.
Lemma xfaces3_ok s : xfaces3 nx ny nz s = par (par (λ s, puts s (flat3 (nx+1) ny nz chx)) (for_loop ((nx+1) * ny * nz) 0 (λ _, bump 4)))
    (λ s, puts s (flat3 (nx+1) ny nz fcx)) s.
Proof.
  transitivity (nest3 (nx+1) ny nz (λ i j k, par (par (λ s, puts s (chx i j k)) (bump 4)) (λ s, puts s (fcx i j k))) s).
  { apply (nest3_ext (nx+1) ny nz). intros i j k [[a b] c] _ _ _. unfold par. cbn [fst snd]. unfold chx, nd.
    destruct (puts a _); [|done]. cbn [mbind option_bind]. by destruct (bump 4 b). }
  rewrite nest3_par. apply par_ext; [|apply nest3_puts]. rewrite nest3_par. apply par_ext; [apply nest3_puts|apply nest3_const].
Qed.
Lemma yfaces3_ok s : yfaces3 nx ny nz s = par (par (λ s, puts s (flat3 nx (ny+1) nz chy)) (for_loop (nx * (ny+1) * nz) 0 (λ _, bump 4)))
    (λ s, puts s (flat3 nx (ny+1) nz fcy)) s.
Proof.
  transitivity (nest3 nx (ny+1) nz (λ i j k, par (par (λ s, puts s (chy i j k)) (bump 4)) (λ s, puts s (fcy i j k))) s).
  { apply (nest3_ext nx (ny+1) nz). intros i j k [[a b] c] _ _ _. unfold par. cbn [fst snd]. unfold chy, nd.
    destruct (puts a _); [|done]. cbn [mbind option_bind]. by destruct (bump 4 b). }
  rewrite nest3_par. apply par_ext; [|apply nest3_puts]. rewrite nest3_par. apply par_ext; [apply nest3_puts|apply nest3_const].
Qed.
Lemma zfaces3_ok s : zfaces3 nx ny nz s = par (par (λ s, puts s (flat3 nx ny (nz+1) chz)) (for_loop (nx * ny * (nz+1)) 0 (λ _, bump 4)))
    (λ s, puts s (flat3 nx ny (nz+1) fcz)) s.
Proof.
  transitivity (nest3 nx ny (nz+1) (λ i j k, par (par (λ s, puts s (chz i j k)) (bump 4)) (λ s, puts s (fcz i j k))) s).
  { apply (nest3_ext nx ny (nz+1)). intros i j k [[a b] c] _ _ _. unfold par. cbn [fst snd]. unfold chz, nd.
    destruct (puts a _); [|done]. cbn [mbind option_bind]. by destruct (bump 4 b). }
  rewrite nest3_par. apply par_ext; [|apply nest3_puts]. rewrite nest3_par. apply par_ext; [apply nest3_puts|apply nest3_const].
Qed.

(** Consecutive loops over the same streams. *)
Lemma par_seq {S T} (f f' : S → option S) (h h' : T → option T) s :
  (s ← par f h s; par f' h' s) = par (λ s, s ← f s; f' s) (λ t, t ← h t; h' t) s.
Proof.
  destruct s as [a b]. unfold par. cbn [fst snd]. destruct (f a) as [a'|]; cbn [mbind option_bind]; [|done].
  destruct (h b) as [b'|]; cbn [mbind option_bind]; [done|]. by destruct (f' a').
Qed.
Lemma fcells_entry_length c n b t : length (fcells_entry c n b t) = 2.
Proof. unfold fcells_entry. destruct (decide (c = 0)); [done|]. by destruct (decide (c = n)). Qed.

Definition all_nodes := flat3 (nx+1) ny nz chx ++ flat3 nx (ny+1) nz chy ++ flat3 nx ny (nz+1) chz.
Definition all_fcells := flat3 (nx+1) ny nz fcx ++ flat3 nx (ny+1) nz fcy ++ flat3 nx ny (nz+1) fcz.
Lemma all_nodes_length : length all_nodes = nfaces3 nx ny nz * 4.
Proof.
  unfold all_nodes, nfaces3. rewrite !app_length, (flat3_length _ _ _ 4), (flat3_length _ _ _ 4), (flat3_length _ _ _ 4) by done. lia.
Qed.
Lemma all_fcells_length : length all_fcells = 2 * nfaces3 nx ny nz.
Proof.
  unfold all_fcells, nfaces3.
  rewrite !app_length, (flat3_length _ _ _ 2), (flat3_length _ _ _ 2), (flat3_length _ _ _ 2) by (intros; apply fcells_entry_length). lia.
Qed.

Definition multiples (w n : nat) : list nat := map (λ k, w * k) (seq 0 (n + 1)).
Lemma topology3_ok m : sized3 nx ny nz m →
  topology3 nx ny nz m = Some (Topo (flat3 nx ny nz chc) (multiples 6 (ncells3 nx ny nz)) (flat (ncells3 nx ny nz) (λ _, [0;1;2;3;4;5]))
    all_nodes (multiples 4 (nfaces3 nx ny nz)) all_fcells).
Proof.
  intros (H1 & H2 & H3 & H4 & H5 & H6). unfold topology3, ncells3 in *.
  rewrite (upd_Some (t_cfpos m)) by lia. cbn [mbind option_bind]. rewrite cells3_ok. unfold par at 1. cbn [fst snd].
  rewrite puts_open by (rewrite (flat3_length _ _ _ 6) by done; lia). cbn [mbind option_bind].
  rewrite bumps_open; [|by rewrite insert_length|apply list_lookup_insert; lia]. cbn [mbind option_bind].
  rewrite tags3_ok by lia. cbn [mbind option_bind].
  rewrite upd_Some by lia. cbn [mbind option_bind].
  set (s0 := (open (t_fn m), open (<[0:=0]> (t_fnpos m)), open (t_fc m))).
  assert (E : (s ← xfaces3 nx ny nz s0; s ← yfaces3 nx ny nz s; zfaces3 nx ny nz s) =
    Some (Stream all_nodes (length (t_fn m)), Stream (multiples 4 (nfaces3 nx ny nz)) (nfaces3 nx ny nz), Stream all_fcells (length (t_fc m)))).
  { rewrite xfaces3_ok.
    transitivity (s ← (s ← par (par (λ s, puts s (flat3 (nx+1) ny nz chx)) (for_loop ((nx+1) * ny * nz) 0 (λ _, bump 4)))
       (λ s, puts s (flat3 (nx+1) ny nz fcx)) s0;
       par (par (λ s, puts s (flat3 nx (ny+1) nz chy)) (for_loop (nx * (ny+1) * nz) 0 (λ _, bump 4)))
       (λ s, puts s (flat3 nx (ny+1) nz fcy)) s);
       par (par (λ s, puts s (flat3 nx ny (nz+1) chz)) (for_loop (nx * ny * (nz+1)) 0 (λ _, bump 4)))
    (λ s, puts s (flat3 nx ny (nz+1) fcz)) s).
    { destruct (par _ _ s0) as [s1|]; [|done]. cbn [mbind option_bind]. rewrite yfaces3_ok.
      destruct (par _ _ s1) as [s2|]; [|done]. cbn [mbind option_bind]. apply zfaces3_ok. }
    rewrite par_seq, par_seq. unfold par at 1. unfold s0. cbn [fst snd].
    assert (E1 : ∀ s : stream nat * stream nat,
      (s ← (s ← par (λ s, puts s (flat3 (nx+1) ny nz chx)) (for_loop ((nx+1) * ny * nz) 0 (λ _, bump 4)) s;
        par (λ s, puts s (flat3 nx (ny+1) nz chy)) (for_loop (nx * (ny+1) * nz) 0 (λ _, bump 4)) s);
        par (λ s, puts s (flat3 nx ny (nz+1) chz)) (for_loop (nx * ny * (nz+1)) 0 (λ _, bump 4)) s)
      = par (λ s, puts s all_nodes) (for_loop (nfaces3 nx ny nz) 0 (λ _, bump 4)) s).
    { intros s. rewrite par_seq, par_seq. apply par_ext.
      - unfold all_nodes. rewrite !puts_app. destruct (puts s.1 _); [|done]. cbn [mbind option_bind]. by rewrite puts_app.
      - unfold nfaces3. rewrite <- !bumps_app. done. }
    rewrite E1. unfold par. cbn [fst snd]. rewrite (puts_open all_nodes) by (rewrite all_nodes_length; lia). cbn [mbind option_bind].
    rewrite bumps_open; [|by rewrite insert_length|apply list_lookup_insert; lia]. cbn [mbind option_bind].
    assert (E2 : ∀ s : stream Z, (s ← (s ← puts s (flat3 (nx+1) ny nz fcx); puts s (flat3 nx (ny+1) nz fcy)); puts s (flat3 nx ny (nz+1) fcz))
       = puts s all_fcells).
    { intros s. unfold all_fcells. rewrite !puts_app. destruct (puts s _); [|done]. cbn [mbind option_bind]. by rewrite puts_app. }
    rewrite E2. rewrite puts_open by (rewrite all_fcells_length; lia). done. }
  destruct (xfaces3 nx ny nz s0) as [s1|]; [|done]. cbn [mbind option_bind] in E |- *.
  destruct (yfaces3 nx ny nz s1) as [s2|]; [|done]. cbn [mbind option_bind] in E |- *. rewrite E. done.
Qed.
End d3.

(** ** The result by coordinates *)
From Verif Require Import CartSpec GridModel GridSpec CsrSpec CsrProof.

Lemma multiples_lookup w n k : k ≤ n → multiples w n !! k = Some (w * k).
Proof. intros H. unfold multiples. rewrite list_lookup_fmap. by rewrite (lookup_seq_lt 0 (n+1) k) by lia. Qed.

Section coords.
Variables nx ny nz : nat.
Notation cell := (cell_no nx ny).
Notation node := (node_no nx ny).
Notation face := (face_no nx ny nz).
Notation cell_at := (cell_at nx ny nz).
Notation face_at := (face_at nx ny nz).

Lemma cell_lt i j k : cell_at i j k → cell i j k < ncells3 nx ny nz.
Proof. intros (Hi & Hj & Hk). by apply num_lt. Qed.
Lemma cell_inj i j k i' j' k' : cell_at i j k → cell_at i' j' k' → cell i j k = cell i' j' k' → i = i' ∧ j = j' ∧ k = k'.
Proof. intros (Hi & Hj & Hk) (Hi' & Hj' & Hk') H. by apply (num_inj nx ny). Qed.
Lemma cell_surj c : c < ncells3 nx ny nz → ∃ i j k, cell_at i j k ∧ c = cell i j k.
Proof. intros H. destruct (num_surj _ _ _ _ H) as (i & j & k & Hi & Hj & Hk & ->). by exists i, j, k. Qed.
Lemma node_lt i j k : node_at nx ny nz i j k → node i j k < nnodes3 nx ny nz.
Proof. intros (Hi & Hj & Hk). apply num_lt; lia. Qed.
Lemma node_inj i j k i' j' k' : node_at nx ny nz i j k → node_at nx ny nz i' j' k' → node i j k = node i' j' k' → i = i' ∧ j = j' ∧ k = k'.
Proof. intros (Hi & Hj & Hk) (Hi' & Hj' & Hk') H. apply (num_inj (nx+1) (ny+1)); try done; lia. Qed.
Lemma node_surj c : c < nnodes3 nx ny nz → ∃ i j k, node_at nx ny nz i j k ∧ c = node i j k.
Proof. intros H. destruct (num_surj _ _ _ _ H) as (i & j & k & Hi & Hj & Hk & ->). exists i, j, k. split; [|done]. unfold node_at. lia. Qed.

Lemma face_bound d i j k : face_at d i j k →
  match d with DX => face d i j k < (nx + 1) * ny * nz
  | DY => (nx + 1) * ny * nz ≤ face d i j k < (nx + 1) * ny * nz + nx * (ny + 1) * nz
  | DZ => (nx + 1) * ny * nz + nx * (ny + 1) * nz ≤ face d i j k < nfaces3 nx ny nz end.
Proof.
  intros (Hi & Hj & Hk). destruct d; simpl in Hi, Hj, Hk; simpl; unfold nfaces3.
  - pose proof (num_lt (nx+1) ny nz i j k ltac:(lia) ltac:(lia) ltac:(lia)) as H. unfold num in H. lia.
  - pose proof (num_lt nx (ny+1) nz i j k ltac:(lia) ltac:(lia) ltac:(lia)) as H. unfold num in H. lia.
  - pose proof (num_lt nx ny (nz+1) i j k ltac:(lia) ltac:(lia) ltac:(lia)) as H. unfold num in H. lia.
Qed.
Lemma face_lt d i j k : face_at d i j k → face d i j k < nfaces3 nx ny nz.
Proof. intros H. apply face_bound in H. unfold nfaces3 in *. destruct d; lia. Qed.
Lemma face_inj d i j k d' i' j' k' : face_at d i j k → face_at d' i' j' k' → face d i j k = face d' i' j' k' →
  d = d' ∧ i = i' ∧ j = j' ∧ k = k'.
Proof.
  intros H H' E. pose proof (face_bound _ _ _ _ H) as B. pose proof (face_bound _ _ _ _ H') as B'.
  destruct H as (Hi & Hj & Hk), H' as (Hi' & Hj' & Hk').
  destruct d, d'; simpl at_dir in *; try (exfalso; lia); (split; [done|]); simpl in E.
  - apply (num_inj (nx+1) ny); try lia. unfold num. lia.
  - apply (num_inj nx (ny+1)); try lia. unfold num. lia.
  - apply (num_inj nx ny); try lia. unfold num. lia.
Qed.
Lemma face_surj f : f < nfaces3 nx ny nz → ∃ d i j k, face_at d i j k ∧ f = face d i j k.
Proof.
  unfold nfaces3. intros H. destruct (decide (f < (nx + 1) * ny * nz)) as [H1|H1].
  - destruct (num_surj _ _ _ _ H1) as (i & j & k & Hi & Hj & Hk & ->). exists DX, i, j, k. split; [|done]. unfold CartSpec.face_at. simpl. lia.
  - destruct (decide (f < (nx + 1) * ny * nz + nx * (ny + 1) * nz)) as [H2|H2].
    + destruct (num_surj nx (ny+1) nz (f - (nx + 1) * ny * nz)) as (i & j & k & Hi & Hj & Hk & E); [lia|].
      exists DY, i, j, k. split; [unfold CartSpec.face_at; simpl; lia|]. unfold num in E. simpl. lia.
    + destruct (num_surj nx ny (nz+1) (f - (nx + 1) * ny * nz - nx * (ny + 1) * nz)) as (i & j & k & Hi & Hj & Hk & E); [lia|].
      exists DZ, i, j, k. split; [unfold CartSpec.face_at; simpl; lia|]. unfold num in E. simpl. lia.
Qed.

(** Lookup in a concatenation of the three families of faces. *)
Lemma faces_lookup {T} L (cx cy cz : nat → nat → nat → list T) d i j k t :
  (∀ i j k, length (cx i j k) = L) → (∀ i j k, length (cy i j k) = L) → (∀ i j k, length (cz i j k) = L) →
  face_at d i j k → t < L →
  (flat3 (nx+1) ny nz cx ++ flat3 nx (ny+1) nz cy ++ flat3 nx ny (nz+1) cz) !! (L * face d i j k + t) =
  match d with DX => cx i j k | DY => cy i j k | DZ => cz i j k end !! t.
Proof.
  intros Lx Ly Lz Hat Ht. pose proof (face_bound _ _ _ _ Hat) as B. destruct Hat as (Hi & Hj & Hk).
  assert (E1 : length (flat3 (nx+1) ny nz cx) = L * ((nx+1) * ny * nz)) by (rewrite (flat3_length _ _ _ L) by auto; lia).
  assert (E2 : length (flat3 nx (ny+1) nz cy) = L * (nx * (ny+1) * nz)) by (rewrite (flat3_length _ _ _ L) by auto; lia).
  destruct d; simpl at_dir in *.
  - rewrite lookup_app_l by (rewrite E1; nia). apply (flat3_lookup (nx+1) ny nz L); auto; lia.
  - rewrite lookup_app_r by (rewrite E1; nia). rewrite lookup_app_l by (rewrite E1, E2; nia). rewrite E1.
    replace (L * face DY i j k + t - L * ((nx + 1) * ny * nz)) with (L * num nx (ny+1) i j k + t).
    { apply (flat3_lookup nx (ny+1) nz L); auto; lia. }
    assert (G : ∀ a n, L * n + t = L * (a + n) + t - L * a) by (intros; lia). apply G.
  - rewrite lookup_app_r by (rewrite E1; nia). rewrite lookup_app_r by (rewrite E1, E2; nia). rewrite E1, E2.
    replace (L * face DZ i j k + t - L * ((nx + 1) * ny * nz) - L * (nx * (ny+1) * nz)) with (L * num nx ny i j k + t).
    { apply (flat3_lookup nx ny (nz+1) L); auto; lia. }
    assert (G : ∀ a b n, L * n + t = L * (a + b + n) + t - L * a - L * b) by (intros; lia). apply G.
Qed.
Lemma chunk_eq i j k : chc nx ny nz i j k = faces_of nx ny nz i j k.
Proof.
  assert (C : ∀ a b c d e f a' b' c' d' e' f' : nat, a = a' → b = b' → c = c' → d = d' → e = e' → f = f' →
    [a;b;c;d;e;f] = [a';b';c';d';e';f']) by congruence.
  unfold chc, faces_of, face_no. apply C; lia.
Qed.

Hypotheses (Hx : 0 < nx) (Hy : 0 < ny) (Hz : 0 < nz).
Lemma fcells_pair d i j k : face_at d i j k →
  match d with DX => fcx nx ny i j k | DY => fcy nx ny i j k | DZ => fcz nx ny nz i j k end = [below nx ny d i j k; above nx ny nz i j k].
Proof.
  intros (Hi & Hj & Hk). unfold above. destruct d; simpl at_dir in *.
  - unfold fcx, fcells_entry. destruct i as [|i]; cbn [below].
    + rewrite (decide_True (P := 0 = 0)) by done. rewrite decide_True by (split_and!; lia). unfold cell_no. f_equal. f_equal. lia.
    + rewrite (decide_False (P := S i = 0)) by lia. destruct (decide (S i = nx)) as [E|E].
      * rewrite decide_False by (unfold CartSpec.cell_at; lia). f_equal. unfold cell_no. lia.
      * rewrite decide_True by (unfold CartSpec.cell_at; lia). unfold cell_no. f_equal; [lia|]. f_equal. lia.
  - unfold fcy, fcells_entry. destruct j as [|j]; cbn [below].
    + rewrite (decide_True (P := 0 = 0)) by done. rewrite decide_True by (split_and!; lia). unfold cell_no. f_equal. f_equal. lia.
    + rewrite (decide_False (P := S j = 0)) by lia. destruct (decide (S j = ny)) as [E|E].
      * rewrite decide_False by (unfold CartSpec.cell_at; lia). f_equal. unfold cell_no. lia.
      * rewrite decide_True by (unfold CartSpec.cell_at; lia). unfold cell_no. f_equal; [lia|]. f_equal. lia.
  - unfold fcz, fcells_entry. destruct k as [|k]; cbn [below].
    + rewrite (decide_True (P := 0 = 0)) by done. rewrite decide_True by (split_and!; lia). unfold cell_no. f_equal. f_equal. lia.
    + rewrite (decide_False (P := S k = 0)) by lia. destruct (decide (S k = nz)) as [E|E].
      * rewrite decide_False by (unfold CartSpec.cell_at; lia). f_equal. unfold cell_no. lia.
      * rewrite decide_True by (unfold CartSpec.cell_at; lia). unfold cell_no. f_equal; [lia|]. f_equal. lia.
Qed.

Definition the_topo : topo := Topo (flat3 nx ny nz (chc nx ny nz)) (multiples 6 (ncells3 nx ny nz)) (flat (ncells3 nx ny nz) (λ _, [0;1;2;3;4;5]))
    (all_nodes nx ny nz) (multiples 4 (nfaces3 nx ny nz)) (all_fcells nx ny nz).
Definition ugrid_of (nc nf : nat) (t : topo) : ugrid := UGrid nc nf (t_cfpos t) (t_cf t) (t_fc t).
Notation g := (ugrid_of (ncells3 nx ny nz) (nfaces3 nx ny nz) the_topo).

Lemma between d i j k : face_at d i j k → face_between g (face d i j k) (below nx ny d i j k) (above nx ny nz i j k).
Proof.
  intros H. pose proof (fcells_pair _ _ _ _ H) as E. unfold face_between. cbn [u_facecells ugrid_of the_topo t_fc].
  assert (HL : ∀ t, t < 2 → all_fcells nx ny nz !! (2 * face d i j k + t) = [below nx ny d i j k; above nx ny nz i j k] !! t).
  { intros t Ht. unfold all_fcells. rewrite (faces_lookup 2); [by rewrite E|intros; apply fcells_entry_length..|done|done]. }
  split; [rewrite <- (Nat.add_0_r (2 * _))|]; rewrite HL by lia; done.
Qed.
Lemma nodes_slice d i j k : face_at d i j k →
  slice (all_nodes nx ny nz) (4 * face d i j k) 4 = Some (corners nx ny d i j k).
Proof.
  intros H. apply slice_pointwise; [by destruct d|]. intros t Ht. unfold all_nodes.
  rewrite (faces_lookup 4); [|done..]. by destruct d.
Qed.
Lemma cell_slice i j k : cell_at i j k → slice (t_cf the_topo) (6 * cell i j k) 6 = Some (faces_of nx ny nz i j k).
Proof using. clear Hx Hy Hz.
  intros (Hi & Hj & Hk). apply slice_pointwise; [done|]. intros t Ht. cbn [the_topo t_cf].
  rewrite <- chunk_eq. by apply (flat3_lookup nx ny nz 6).
Qed.
Definition rows3 : list (list nat) := flat3 nx ny nz (λ i j k, [faces_of nx ny nz i j k]).
Lemma rows3_length : length rows3 = ncells3 nx ny nz.
Proof using. clear Hx Hy Hz. unfold rows3. rewrite (flat3_length _ _ _ 1) by done. unfold ncells3. lia. Qed.
Lemma rows3_lookup i j k : cell_at i j k → rows3 !! cell i j k = Some (faces_of nx ny nz i j k).
Proof using. clear Hx Hy Hz.
  intros (Hi & Hj & Hk). unfold rows3.
  pose proof (flat3_lookup nx ny nz 1 (λ i j k, [faces_of nx ny nz i j k]) ltac:(done) i j k 0 Hi Hj Hk ltac:(lia)) as H.
  rewrite Nat.mul_1_l, Nat.add_0_r in H. done.
Qed.
Lemma rows3_inv c r : rows3 !! c = Some r → ∃ i j k, cell_at i j k ∧ c = cell i j k ∧ r = faces_of nx ny nz i j k.
Proof using. clear Hx Hy Hz.
  intros H. pose proof (lookup_lt_Some _ _ _ H) as Hlt. rewrite rows3_length in Hlt.
  destruct (cell_surj c Hlt) as (i & j & k & Hat & ->). exists i, j, k. split_and!; [done|done|].
  rewrite rows3_lookup in H by done. by simplify_eq.
Qed.
Lemma faces_valid i j k f : cell_at i j k → f ∈ faces_of nx ny nz i j k →
  ∃ d i' j' k', face_at d i' j' k' ∧ f = face d i' j' k' ∧
    ((d = DX ∧ (i' = i ∨ i' = i + 1) ∧ j' = j ∧ k' = k) ∨ (d = DY ∧ i' = i ∧ (j' = j ∨ j' = j + 1) ∧ k' = k) ∨
     (d = DZ ∧ i' = i ∧ j' = j ∧ (k' = k ∨ k' = k + 1))).
Proof using. clear Hx Hy Hz.
  intros (Hi & Hj & Hk) Hf. unfold faces_of in Hf. unfold CartSpec.face_at.
  repeat (apply elem_of_cons in Hf as [->|Hf]); [..|by apply elem_of_nil in Hf].
  - exists DX, i, j, k. simpl. split_and!; [lia..|done|tauto].
  - exists DX, (i+1), j, k. simpl. split_and!; [lia..|done|tauto].
  - exists DY, i, j, k. simpl. split_and!; [lia..|done|tauto].
  - exists DY, i, (j+1), k. simpl. split_and!; [lia..|done|tauto].
  - exists DZ, i, j, k. simpl. split_and!; [lia..|done|tauto].
  - exists DZ, i, j, (k+1). simpl. split_and!; [lia..|done|tauto].
Qed.
Lemma below_cell d i j k : face_at d i j k → below nx ny d i j k = (-1)%Z ∨
  ∃ i' j' k', cell_at i' j' k' ∧ below nx ny d i j k = Z.of_nat (cell i' j' k') ∧
    match d with DX => i = i' + 1 ∧ j = j' ∧ k = k' | DY => i = i' ∧ j = j' + 1 ∧ k = k' | DZ => i = i' ∧ j = j' ∧ k = k' + 1 end.
Proof using. clear Hx Hy Hz.
  intros (Hi & Hj & Hk). unfold CartSpec.cell_at. destruct d; simpl at_dir in *; cbn [below].
  - destruct i as [|i]; [by left|right]. exists i, j, k. split_and!; lia.
  - destruct j as [|j]; [by left|right]. exists i, j, k. split_and!; lia.
  - destruct k as [|k]; [by left|right]. exists i, j, k. split_and!; lia.
Qed.
Lemma above_cell i j k : above nx ny nz i j k = (-1)%Z ∨ cell_at i j k ∧ above nx ny nz i j k = Z.of_nat (cell i j k).
Proof using. clear Hx Hy Hz. unfold above. destruct (decide _); [right|left]; done. Qed.

Lemma cart3_ok : grid_ok g rows3.
Proof.
  split.
  - apply rows3_length.
  - cbn [u_facepos u_cellfaces ugrid_of]. split_and!.
    + cbn [the_topo t_cfpos]. unfold multiples. rewrite map_length, seq_length, rows3_length. lia.
    + cbn [the_topo t_cfpos]. rewrite multiples_lookup by lia. done.
    + cbn [the_topo t_cfpos t_cf]. rewrite rows3_length, multiples_lookup by lia.
      rewrite (flat3_length _ _ _ 6) by done. unfold ncells3. f_equal. lia.
    + intros c r Hr. apply rows3_inv in Hr as (i & j & k & Hat & -> & ->). pose proof (cell_lt _ _ _ Hat).
      exists (6 * cell i j k), (6 * S (cell i j k)). cbn [the_topo t_cfpos]. rewrite !multiples_lookup by lia.
      split_and!; [done|done|lia|]. replace (6 * S (cell i j k) - 6 * cell i j k) with 6 by lia. by apply cell_slice.
  - apply all_fcells_length.
  - intros f a b Hab.
    assert (Hf : f < nfaces3 nx ny nz).
    { destruct Hab as [_ H]. apply lookup_lt_Some in H. cbn in H. rewrite all_fcells_length in H. lia. }
    destruct (face_surj f Hf) as (d & i & j & k & Hat & ->). pose proof (between _ _ _ _ Hat) as Hb.
    destruct Hab as [A1 A2], Hb as [B1 B2]. rewrite A1 in B1. rewrite A2 in B2. injection B1 as ->. injection B2 as ->.
    cbn [u_nc ugrid_of].
    destruct (below_cell _ _ _ _ Hat) as [E1|(i' & j' & k' & Hat' & E1 & Hc)]; destruct (above_cell i j k) as [E2|[Hat2 E2]]; rewrite E1, E2.
    + pose proof (cell_lt 0 0 0). split_and!; lia.
    + pose proof (cell_lt _ _ _ Hat2). split_and!; lia.
    + pose proof (cell_lt _ _ _ Hat'). split_and!; lia.
    + pose proof (cell_lt _ _ _ Hat'). pose proof (cell_lt _ _ _ Hat2). split_and!; try lia. intros E. exfalso.
      assert (E' : cell i' j' k' = cell i j k) by lia. apply cell_inj in E'; [|done|done]. destruct d; lia.
  - intros c r Hr. apply rows3_inv in Hr as (i & j & k & (Hi & Hj & Hk) & -> & ->).
    assert (D : ∀ d i j k d' i' j' k', face_at d i j k → face_at d' i' j' k' → ¬ (d = d' ∧ i = i' ∧ j = j' ∧ k = k') → face d i j k ≠ face d' i' j' k').
    { intros d1 i1 j1 k1 d2 i2 j2 k2 H1 H2 Hn E. apply Hn. by apply face_inj. }
    unfold faces_of. repeat (apply NoDup_cons; split); [..|by apply NoDup_nil]; rewrite ?not_elem_of_cons;
      repeat split; try (apply not_elem_of_nil);
      (apply D; [unfold CartSpec.face_at; simpl at_dir; lia|unfold CartSpec.face_at; simpl at_dir; lia|]); intros (? & ? & ? & ?); try discriminate; lia.
  - intros c r f Hr. apply rows3_inv in Hr as (i & j & k & Hat & -> & ->). split.
    + intros Hf. destruct (faces_valid _ _ _ _ Hat Hf) as (d & i' & j' & k' & Hfa & -> & Hc).
      exists (below nx ny d i' j' k'), (above nx ny nz i' j' k'). split; [by apply between|].
      destruct (decide (i' = i ∧ j' = j ∧ k' = k)) as [(-> & -> & ->)|Hne].
      * right. unfold above. by rewrite decide_True.
      * left. destruct Hc as [(-> & Hi' & -> & ->)|[(-> & -> & Hj' & ->)|(-> & -> & -> & Hk')]]; cbn [below].
        -- assert (i' = S i) as -> by lia. done.
        -- assert (j' = S j) as -> by lia. done.
        -- assert (k' = S k) as -> by lia. done.
    + intros (a & b & Hab & Hor).
      assert (Hf : f < nfaces3 nx ny nz).
      { destruct Hab as [_ H]. apply lookup_lt_Some in H. cbn in H. rewrite all_fcells_length in H. lia. }
      destruct (face_surj f Hf) as (d & i' & j' & k' & Hfa & ->). pose proof (between _ _ _ _ Hfa) as Hb.
      destruct Hab as [A1 A2], Hb as [B1 B2]. rewrite A1 in B1. rewrite A2 in B2. injection B1 as ->. injection B2 as ->.
      assert (G : ∀ d i' j' k', d = DX ∧ (i' = i ∨ i' = i + 1) ∧ j' = j ∧ k' = k ∨ d = DY ∧ i' = i ∧ (j' = j ∨ j' = j + 1) ∧ k' = k ∨
        d = DZ ∧ i' = i ∧ j' = j ∧ (k' = k ∨ k' = k + 1) → face d i' j' k' ∈ faces_of nx ny nz i j k).
      { intros d0 i0 j0 k0 H. unfold faces_of. rewrite !elem_of_cons. naive_solver. }
      destruct Hor as [Hor|Hor].
      * destruct (below_cell _ _ _ _ Hfa) as [E1|(i1 & j1 & k1 & Hat' & E1 & Hc)]; [lia|].
        assert (E' : cell i1 j1 k1 = cell i j k) by lia. apply cell_inj in E' as (-> & -> & ->); [|done|done].
        apply G. destruct d; destruct Hc as (-> & -> & ->); tauto.
      * destruct (above_cell i' j' k') as [E2|[Hat2 E2]]; [lia|].
        assert (E' : cell i' j' k' = cell i j k) by lia. apply cell_inj in E' as (-> & -> & ->); [|done|done].
        apply G. destruct d; tauto.
Qed.
End coords.
