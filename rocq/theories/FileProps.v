(** C44: reading a grid from a file. *)
From Verif Require Import Base UniqModel FileModel FileSpec.
Unset Default Proof Using.

Section props.
Context {S D : Type}.
Variables (scan_ulong : S → option (nat * S)) (scan_int : S → option (Z * S)) (scan_double : S → option (D * S)).
Variables (junk_int : Z) (junk_double : D).
Notation read_grid := (read_grid scan_ulong scan_int scan_double junk_int junk_double).
Notation has_head := (has_head scan_ulong scan_int).
Notation has_part1 := (has_part1 scan_int scan_double).
Notation has_part2 := (has_part2 scan_int scan_double).
Notation has_part3 := (has_part3 scan_int scan_double).
Notation complete := (complete scan_ulong scan_int scan_double).
Notation consistent := (consistent scan_ulong scan_int scan_double).

(** The loop that fills an array. *)
Lemma read_loop_ok {A} (scan : S → option (A * S)) n : ∀ fuel i a s, i + n ≤ length a → n < fuel →
  ∃ a' i' s', read_loop scan fuel (Z.of_nat (i + n)) i a s = Some (a', i', s') ∧ i' ≤ i + n ∧
    (i' = i + n → ∃ l, values scan n s = Some (l, s') ∧ a' = take i a ++ l ++ drop (i + n) a) ∧ (i' ≠ i + n → values scan n s = None).
Proof using.
  induction n as [|n IH]; intros fuel i a s Hi Hf; (destruct fuel as [|fuel]; [lia|]); cbn [read_loop].
  - rewrite decide_False by lia. exists a, i, s. split; [done|]. split; [lia|]. split; [|lia].
    intros _. exists []. split; [done|]. rewrite Nat.add_0_r. cbn [app]. by rewrite take_drop.
  - rewrite decide_True by lia. cbn [values]. destruct (scan s) as [[v s1]|].
    2: { exists a, i, s. split; [done|]. split; [lia|]. split; [lia|done]. }
    rewrite upd_Some by lia. cbn [mbind option_bind].
    replace (i + Datatypes.S n) with ((i + 1) + n) by lia.
    destruct (IH fuel (i + 1) (<[i := v]> a) s1) as (a' & i' & s' & -> & Hle & He & Hn); [rewrite insert_length; lia|lia|].
    exists a', i', s'. split; [done|]. split; [lia|]. split.
    + intros E. destruct (He E) as (l & -> & ->). exists (v :: l). split; [done|].
      rewrite (take_S_r (<[i := v]> a) i v) || (replace (i + 1) with (Datatypes.S i) by lia; rewrite (take_S_r _ i v)).
      2: by rewrite list_lookup_insert by lia.
      rewrite take_insert by lia. rewrite <- app_assoc. cbn [app]. rewrite drop_insert_gt by lia. done.
    + intros E. by rewrite (Hn E).
Qed.
Lemma read_array_ok {A} (scan : S → option (A * S)) n a s : n ≤ length a →
  read_array scan (Z.of_nat n) a s = Some (match values scan n s with Some (l, s') => Some (l ++ drop n a, s') | None => None end).
Proof using.
  intros Hn. unfold read_array. destruct (read_loop_ok scan n (length a + 1) 0 a s) as (a' & i' & s' & E & _ & He & Hne); [lia|lia|].
  cbn [Nat.add] in E. rewrite E. cbn [mbind option_bind]. case_decide as Hd.
  - destruct He as (l & -> & ->); [lia|]. done.
  - rewrite Hne by lia. done.
Qed.
Lemma values_length {A} (scan : S → option (A * S)) n : ∀ s l s', values scan n s = Some (l, s') → length l = n.
Proof using.
  induction n as [|n IH]; intros s l s' E; cbn [values] in E; [by simplify_eq|].
  destruct (scan s) as [[v s1]|]; [|done]. destruct (values scan n s1) as [[l1 s2]|] eqn:E1; [|done]. simplify_eq.
  cbn. f_equal. eauto.
Qed.
Lemma read_tagged_ok n : ∀ fuel i a b s, i + n ≤ length a → length b = length a → n < fuel →
  ∃ a' b' i' s', read_tagged scan_int fuel (Z.of_nat (i + n)) i a b s = Some (a', b', i', s') ∧ i' ≤ i + n ∧
    (i' = i + n → ∃ l t, length l = n ∧ length t = n ∧ values scan_int (2 * n) s = Some (interleave l t, s') ∧ a' = take i a ++ l ++ drop (i + n) a ∧ b' = take i b ++ t ++ drop (i + n) b) ∧
    (i' ≠ i + n → values scan_int (2 * n) s = None).
Proof using.
  induction n as [|n IH]; intros fuel i a b s Hi Hb Hf; (destruct fuel as [|fuel]; [lia|]); cbn [read_tagged].
  - rewrite decide_False by lia. exists a, b, i, s. split; [done|]. split; [lia|]. split; [|lia].
    intros _. exists [], []. rewrite Nat.add_0_r. cbn [app]. rewrite !take_drop. done.
  - rewrite decide_True by lia. replace (2 * Datatypes.S n) with (Datatypes.S (Datatypes.S (2 * n))) by lia. cbn [values].
    destruct (scan_int s) as [[v s1]|].
    2: { exists a, b, i, s. split; [done|]. split; [lia|]. split; [lia|done]. }
    rewrite upd_Some by lia. cbn [mbind option_bind]. destruct (scan_int s1) as [[w s2]|].
    2: { exists (<[i := v]> a), b, i, s. split; [done|]. split; [lia|]. split; [lia|done]. }
    rewrite upd_Some by lia. cbn [mbind option_bind].
    replace (i + Datatypes.S n) with ((i + 1) + n) by lia.
    destruct (IH fuel (i + 1) (<[i := v]> a) (<[i := w]> b) s2) as (a' & b' & i' & s' & -> & Hle & He & Hn); [rewrite insert_length; lia|by rewrite !insert_length|lia|].
    exists a', b', i', s'. split; [done|]. split; [lia|]. split.
    + intros E. destruct (He E) as (l & t & Hl & Ht & -> & -> & ->). exists (v :: l), (w :: t).
      split; [by cbn; rewrite Hl|]. split; [by cbn; rewrite Ht|]. split; [done|].
      replace (i + 1) with (Datatypes.S i) by lia.
      rewrite (take_S_r (<[i := v]> a) i v) by (rewrite list_lookup_insert by lia; done).
      rewrite (take_S_r (<[i := w]> b) i w) by (rewrite list_lookup_insert by lia; done).
      rewrite !take_insert by lia. rewrite <- !app_assoc. cbn [app]. rewrite !drop_insert_gt by lia. done.
    + intros E. by rewrite (Hn E).
Qed.
Lemma interleave_values m s l s' : values scan_int (2 * m) s = Some (l, s') → ∃ a t, length a = m ∧ length t = m ∧ l = interleave a t.
Proof using.
  intros E. apply values_length in E. clear s s'. revert l E. induction m as [|m IH]; intros l E.
  - destruct l; [|done]. by exists [], [].
  - destruct l as [|x [|y l]]; cbn in E; [lia|lia|]. destruct (IH l) as (a & t & Ha & Ht & ->); [lia|].
    exists (x :: a), (y :: t). cbn. by rewrite Ha, Ht.
Qed.
Lemma interleave_inj a : ∀ t a' t', length t = length a → length a' = length a → length t' = length a → interleave a t = interleave a' t' → a = a' ∧ t = t'.
Proof using.
  induction a as [|x a IH]; intros [|y t] [|x' a'] [|y' t'] H1 H2 H3 E; try done. unfold interleave in E. cbn in E. simplify_eq.
  destruct (IH t a' t') as [-> ->]; try (cbn in *; lia); done.
Qed.
Lemma discard_ok n : ∀ s, discard_ints scan_int n s = match values scan_int n s with Some (_, s') => Some s' | None => None end.
Proof using.
  induction n as [|n IH]; intros s; cbn [discard_ints values]; [done|]. destruct (scan_int s) as [[v s1]|]; [|done].
  cbn [mbind option_bind]. rewrite IH. by destruct (values scan_int n s1) as [[l s2]|].
Qed.
Lemma read_meta_ok m : ∀ s, read_meta scan_ulong m s = values scan_ulong m s.
Proof using.
  induction m as [|m IH]; intros s; cbn [read_meta values]; [done|]. destruct (scan_ulong s) as [[v s1]|]; [|done].
  cbn [mbind option_bind]. rewrite IH. by destruct (values scan_ulong m s1) as [[l s2]|].
Qed.

(** The grid has the content of the file; an announced but unused end of
    face_nodes, cell_faces and cell_facetag is not initialised; [kept] says
    whether the memory for global_cell was given. *)
Definition same (kept : bool) (h : head) (d1 : @part1 D) (d2 : @part2 D) (d3 : @part3 D) (G : @ugrid D) : Prop :=
  u_dim G = h_dim h ∧ u_nc G = h_nc h ∧ u_nf G = h_nf h ∧ u_nn G = h_nn h ∧
  u_cart G = d_cart d1 ++ replicate (3 - h_dim h) 1%Z ∧ u_coords G = d_coords d1 ∧
  u_fnpos G = d_fnpos d1 ∧ length (u_fnodes G) = h_nfn h ∧ take (length (d_fnodes d2)) (u_fnodes G) = d_fnodes d2 ∧
  u_fcells G = d_fcells d2 ∧ u_fareas G = d_fareas d2 ∧ u_fcent G = d_fcent d2 ∧ u_fnorm G = d_fnorm d2 ∧
  u_cfpos G = d_cfpos d2 ∧ length (u_cfaces G) = h_ncf h ∧ take (length (d_cfaces d3)) (u_cfaces G) = d_cfaces d3 ∧
  match d_ctag d3, u_ctag G with
  | None, None => True
  | Some t, Some t' => length t' = h_ncf h ∧ take (length (d_cfaces d3)) t' = t
  | _, _ => False
  end ∧
  u_gcell G = (if kept then d_gcell d3 else None) ∧ u_cvol G = d_cvol d3 ∧ u_ccent G = d_ccent d3.
(** malloc grants the grid and its twelve arrays. *)
Definition granted (oracle : list bool) : Prop := Forall (λ b, b = true) (take 13 oracle).
(** The answer to the request for global_cell. *)
Definition kept (oracle : list bool) : bool := default true (oracle !! 13).

Lemma drop_all' {A} (x : A) n m : m = n → drop m (replicate n x) = [].
Proof using. intros ->. apply drop_ge. by rewrite replicate_length. Qed.

Lemma next_alloc_granted oracle : granted oracle ↔ fst (next_alloc oracle) = true ∧ Forall (λ b, b = true) (take 12 (snd (next_alloc oracle))).
Proof using.
  unfold granted. destruct oracle as [|b o]; cbn [next_alloc fst snd].
  - rewrite !take_nil. split; [|constructor]. intros. by split; constructor.
  - replace (take 13 (b :: o)) with (b :: take 12 o) by done. by rewrite Forall_cons.
Qed.
Lemma kept_next oracle : fst (next_alloc (drop 12 (snd (next_alloc oracle)))) = kept oracle.
Proof using.
  unfold kept. destruct oracle as [|b o]; [done|]. cbn [next_alloc snd]. change ((b :: o) !! 13) with (o !! 12).
  rewrite <- (Nat.add_0_r 12) at 2. rewrite <- lookup_drop. by destruct (drop 12 o).
Qed.
Lemma values6 s l s1 : values scan_ulong 6 s = Some (l, s1) → ∃ a b c d e f, l = [a; b; c; d; e; f].
Proof using. intros E. apply values_length in E. do 6 (destruct l as [|? l]; [done|]). destruct l; [|done]. eauto 10. Qed.
Lemma last_lookup_n {A} (l : list A) n : length l = n + 1 → last l = l !! n.
Proof using. intros E. rewrite last_lookup, E. f_equal. lia. Qed.
Lemma to_size_nat m : to_size (Z.of_nat m) = Z.of_nat m.
Proof using. unfold to_size. rewrite decide_False by lia. done. Qed.

(** The faces of cells, with or without tags. *)
Definition facespec (tag : Z) (m : nat) (s : S) (l : list Z) (t : option (list Z)) (s1 : S) : Prop :=
  match t with
  | None => tag = 0%Z ∧ values scan_int m s = Some (l, s1)
  | Some t => tag ≠ 0%Z ∧ length l = m ∧ length t = m ∧ values scan_int (2 * m) s = Some (interleave l t, s1)
  end.
Lemma faces_step tag m ncf s : m ≤ ncf →
  ∃ r, (if decide (tag = 0)%Z then
      r ← read_array scan_int (Z.of_nat m) (replicate ncf junk_int) s;
      Some (match r with Some (a, s) => Some (a, if decide (tag = 0)%Z then None else Some (replicate ncf junk_int), s) | None => None end)
    else
      match (if decide (tag = 0)%Z then None else Some (replicate ncf junk_int)) with
      | None => None
      | Some tag =>
        '(a, b, i, s) ← read_tagged scan_int (length (replicate ncf junk_int) + 1) (Z.of_nat m) 0 (replicate ncf junk_int) tag s;
        Some (if decide (Z.of_nat i = Z.of_nat m) then Some (a, Some b, s) else None)
      end) = Some r ∧
    match r with
    | None => ∀ l t s1, ¬ facespec tag m s l t s1
    | Some (a, ct, s12) => ∃ l t, facespec tag m s l t s12 ∧ length a = ncf ∧ take (length l) a = l ∧
        match t, ct with None, None => True | Some t, Some t' => length t' = ncf ∧ take (length l) t' = t | _, _ => False end ∧
        ∀ l' t' s', facespec tag m s l' t' s' → s' = s12
    end.
Proof using.
  intros Hm. destruct (decide (tag = 0)%Z) as [->|Ht].
  - rewrite read_array_ok by (by rewrite replicate_length). cbn [mbind option_bind]. eexists. split; [done|].
    destruct (values scan_int m s) as [[l s1]|] eqn:E.
    + pose proof (values_length _ _ _ _ _ E) as L. exists l, None. split; [done|]. split; [rewrite app_length, drop_length, replicate_length; lia|].
      split; [by rewrite take_app|]. split; [done|]. intros l' [t'|] s' H; [by destruct H|]. destruct H as [_ H]. congruence.
    + intros l [t|] s1; [by intros []|]. intros [_ H]. congruence.
  - destruct (read_tagged_ok m (length (replicate ncf junk_int) + 1) 0 (replicate ncf junk_int) (replicate ncf junk_int) s) as (a' & b' & i' & s' & E & Hle & He & Hn); [rewrite replicate_length; lia|done|rewrite replicate_length; lia|].
    cbn [Nat.add] in E. rewrite E. cbn [mbind option_bind]. eexists. split; [done|]. case_decide as Hd.
    + destruct He as (l & t & Hl & Htl & Hv & -> & ->); [lia|]. exists l, (Some t). split; [done|]. change (0 + m) with m. rewrite take_0. cbn [app].
      split; [rewrite app_length, drop_length, replicate_length; lia|]. split; [by rewrite take_app|].
      split; [split; [rewrite app_length, drop_length, replicate_length; lia|]; rewrite Hl, <- Htl; by rewrite take_app|].
      intros l' [t'|] s1 H; [|by destruct H]. destruct H as (_ & _ & _ & H). congruence.
    + intros l [t|] s1; [|by intros []]. intros (_ & _ & _ & H). rewrite Hn in H by lia. done.
Qed.
(** global_cell. *)
Definition gcellspec (mp : Z) (nc : nat) (s : S) (g : option (list Z)) (s1 : S) : Prop :=
  match g with None => mp = 0%Z ∧ s1 = s | Some g => mp ≠ 0%Z ∧ values scan_int nc s = Some (g, s1) end.
Lemma gcell_step mp (kp : bool) nc s :
  ∃ r, (if decide (mp = 0)%Z then match (if decide (mp = 0)%Z then None else if kp then Some (replicate nc junk_int) else None) with None => Some (Some (None, s)) | Some _ => None end
    else match (if decide (mp = 0)%Z then None else if kp then Some (replicate nc junk_int) else None) with
      | Some a => r ← read_array scan_int (Z.of_nat nc) a s; Some (match r with Some (a, s) => Some (Some a, s) | None => None end)
      | None => Some (match discard_ints scan_int nc s with Some s => Some (None, s) | None => None end)
      end) = Some r ∧
    match r with
    | None => ∀ g s1, ¬ gcellspec mp nc s g s1
    | Some (gc, s13) => ∃ g, gcellspec mp nc s g s13 ∧ gc = (if kp then g else None) ∧ ∀ g' s', gcellspec mp nc s g' s' → s' = s13
    end.
Proof using.
  destruct (decide (mp = 0)%Z) as [->|Hm].
  - eexists. split; [done|]. exists None. split; [done|]. split; [by destruct kp|]. intros [g|] s' H; by destruct H.
  - assert (Hu : ∀ l s1, values scan_int nc s = Some (l, s1) → ∀ g' s', gcellspec mp nc s g' s' → s' = s1).
    { intros l s1 E [g|] s' H; [|by destruct H]. destruct H. congruence. }
    assert (Hn : values scan_int nc s = None → ∀ g' s', ¬ gcellspec mp nc s g' s').
    { intros E [g|] s' H; [|by destruct H]. destruct H. congruence. }
    destruct kp.
    + rewrite read_array_ok by (by rewrite replicate_length). cbn [mbind option_bind]. eexists. split; [done|].
      destruct (values scan_int nc s) as [[l s1]|] eqn:E; [|auto]. exists (Some l). split; [done|]. rewrite drop_all', app_nil_r by done. split; [done|]. eauto.
    + rewrite discard_ok. eexists. split; [done|]. destruct (values scan_int nc s) as [[l s1]|] eqn:E; [|auto]. exists (Some l). split; [done|]. eauto.
Qed.

(** With a consistent file nothing outside the arrays is touched: the result is
    the grid of the file if the file is complete and memory was given, and NULL
    otherwise. *)
Theorem C44_read oracle s : consistent s →
  (∃ G h d1 d2 d3, read_grid oracle s = Some (Some G) ∧ granted oracle ∧ complete s h d1 d2 d3 ∧ same (kept oracle) h d1 d2 d3 G) ∨
  (read_grid oracle s = Some None ∧ (¬ granted oracle ∨ ¬ ∃ h d1 d2 d3, complete s h d1 d2 d3)).
Proof using.
  intros (C1 & C2 & C3). unfold FileModel.read_grid, allocate_grid_from_file. rewrite read_meta_ok.
  destruct (values scan_ulong 6 s) as [[l s1]|] eqn:E1.
  2: { right. split; [done|]. right. intros (h & d1 & d2 & d3 & H). destruct H as (? & ? & ? & ? & ? & (? & H & _) & _). congruence. }
  destruct (values6 _ _ _ E1) as (nd & nc & nf & nn & nfn & ncf & ->).
  destruct (scan_int s1) as [[tag s1']|] eqn:E2a.
  2: { right. split; [done|]. right. intros (h & d1 & d2 & d3 & H). destruct H as (? & ? & ? & ? & ? & (? & H & H') & _). cbn [values] in H'. simplify_eq. by rewrite E2a in H'. }
  destruct (scan_int s1') as [[mp s2]|] eqn:E2b.
  2: { right. split; [done|]. right. intros (h & d1 & d2 & d3 & H). destruct H as (? & ? & ? & ? & ? & (? & H & H') & _). cbn [values] in H'. simplify_eq. by rewrite E2a, E2b in H'. }
  set (h := Head nd nc nf nn nfn ncf tag mp).
  assert (Hh : has_head s h s2). { exists s1. split; [done|]. cbn [values]. by rewrite E2a, E2b. }
  assert (Hhu : ∀ h' s', has_head s h' s' → h' = h ∧ s' = s2).
  { intros h' s' (s1b & Ha & Hb). rewrite E1 in Ha. cbn [values] in Hb. destruct h'. cbn in *. simplify_eq. rewrite E2a, E2b in Hb. by simplify_eq. }
  destruct (C1 _ _ Hh) as (Hd & Hnc & Hnf & Hnn). cbn in Hd, Hnc, Hnf, Hnn.
  unfold allocate_grid. pose proof (next_alloc_granted oracle) as Hg. pose proof (kept_next oracle) as Hk. destruct (next_alloc oracle) as [ok o1]. cbn [fst snd] in Hg, Hk.
  destruct ok.
  2: { right. split; [done|]. left. rewrite Hg. by intros []. }
  destruct (decide (Forall _ _)) as [Ho|Ho].
  2: { right. split; [done|]. left. rewrite Hg. by intros []. }
  assert (Hgr : granted oracle) by (by rewrite Hg). clear Hg. cbv beta iota.
  rewrite decide_False by (unfold int_max in *; lia). rewrite Hk. cbn [u_cart u_ctag].
  rewrite (read_array_ok scan_int nd) by (cbn; lia). cbn [mbind option_bind].
  destruct (values scan_int nd s2) as [[cart s3]|] eqn:E3.
  2: { right. split; [done|]. right. intros (h' & d1 & d2 & d3 & H). destruct H as (? & ? & ? & ? & ? & H & H' & _). apply Hhu in H as [-> ->]. destruct H' as (? & ? & H' & _). cbn in H'. congruence. }
  pose proof (values_length _ _ _ _ _ E3) as Lcart.
  cbn [mbind option_bind u_coords u_fnodes u_fnpos u_fcells u_fareas u_fcent u_fnorm u_cfaces u_ctag u_cfpos u_cvol u_ccent u_gcell u_cart u_dim u_nc u_nf u_nn].
  unfold read_grid_nodes.
  cbn [mbind option_bind u_coords u_fnodes u_fnpos u_fcells u_fareas u_fcent u_fnorm u_cfaces u_ctag u_cfpos u_cvol u_ccent u_gcell u_cart u_dim u_nc u_nf u_nn].
  rewrite read_array_ok by (rewrite replicate_length; lia). cbn [mbind option_bind].
  destruct (values scan_double (nd * nn) s3) as [[coords s4]|] eqn:E4.
  2: { right. split; [done|]. right. intros (h' & d1 & d2 & d3 & H). destruct H as (? & ? & ? & ? & ? & H & H' & _). apply Hhu in H as [-> ->]. destruct H' as (? & ? & Ha & Hb & _). cbn in Ha, Hb. congruence. }
  unfold read_grid_faces.
  cbn [mbind option_bind u_coords u_fnodes u_fnpos u_fcells u_fareas u_fcent u_fnorm u_cfaces u_ctag u_cfpos u_cvol u_ccent u_gcell u_cart u_dim u_nc u_nf u_nn].
  rewrite read_array_ok by (rewrite replicate_length; lia). cbn [mbind option_bind].
  destruct (values scan_int (nf + 1) s4) as [[fnpos s5]|] eqn:E5.
  2: { right. split; [done|]. right. intros (h' & d1 & d2 & d3 & H). destruct H as (? & ? & ? & ? & ? & H & H' & _). apply Hhu in H as [-> ->]. destruct H' as (? & ? & Ha & Hb & Hc). cbn in Ha, Hb, Hc. congruence. }
  set (d1 := Part1 cart coords fnpos).
  assert (H1 : has_part1 h s2 d1 s5) by (by exists s3, s4).
  assert (H1u : ∀ d s', has_part1 h s2 d s' → d = d1 ∧ s' = s5).
  { intros [a b c] s' (? & ? & Ha & Hb & Hc). cbn in Ha, Hb, Hc. simplify_eq. done. }
  destruct (C2 _ _ _ _ Hh H1) as (m1 & Hm1 & Lm1). cbn in Lm1.
  pose proof (values_length _ _ _ _ _ E5) as Lfnpos. change (d_fnpos d1) with fnpos in Hm1. pose proof Hm1 as Hm1'. rewrite (last_lookup_n _ nf) in Hm1' by done.
  rewrite (drop_all' _ (nf + 1) (nf + 1)) by done. rewrite app_nil_r, Hm1'. cbn [mbind option_bind]. rewrite to_size_nat.
  rewrite read_array_ok by (rewrite replicate_length; lia). cbn [mbind option_bind].
  assert (Hinc1 : ∀ (P : Prop), (∀ d2 s', has_part2 h m1 s5 d2 s' → P) → (P → False) → ¬ ∃ h d1 d2 d3, complete s h d1 d2 d3).
  { intros P HP HF (h' & d1' & d2 & d3 & H). destruct H as (? & ? & ? & m & ? & H & H' & Hl & H2 & _). apply Hhu in H as [-> ->]. apply H1u in H' as [-> ->].
    cbn in Hl. rewrite Hm1 in Hl. assert (m = m1) as -> by (simplify_eq; lia). eauto. }
  destruct (values scan_int m1 s5) as [[fnodes s6]|] eqn:E6.
  2: { right. split; [done|]. right. apply (Hinc1 False); [|done]. intros d2 s' (? & ? & ? & ? & ? & Ha & _). congruence. }
  rewrite read_array_ok by (rewrite replicate_length; lia). cbn [mbind option_bind].
  destruct (values scan_int (2 * nf) s6) as [[fcells s7]|] eqn:E7.
  2: { right. split; [done|]. right. apply (Hinc1 False); [|done]. intros d2 s' (? & ? & ? & ? & ? & Ha & Hb & _). cbn [h_nf h] in Hb. congruence. }
  rewrite read_array_ok by (rewrite replicate_length; lia). cbn [mbind option_bind].
  destruct (values scan_double nf s7) as [[fareas s8]|] eqn:E8.
  2: { right. split; [done|]. right. apply (Hinc1 False); [|done]. intros d2 s' (? & ? & ? & ? & ? & Ha & Hb & Hc & _). cbn [h_nf h] in *. congruence. }
  rewrite read_array_ok by (rewrite replicate_length; lia). cbn [mbind option_bind].
  destruct (values scan_double (nd * nf) s8) as [[fcent s9]|] eqn:E9.
  2: { right. split; [done|]. right. apply (Hinc1 False); [|done]. intros d2 s' (? & ? & ? & ? & ? & Ha & Hb & Hc & He & _). cbn [h_nf h h_dim] in *. congruence. }
  rewrite read_array_ok by (rewrite replicate_length; lia). cbn [mbind option_bind].
  destruct (values scan_double (nd * nf) s9) as [[fnorm s10]|] eqn:E10.
  2: { right. split; [done|]. right. apply (Hinc1 False); [|done]. intros d2 s' (? & ? & ? & ? & ? & Ha & Hb & Hc & He & Hf & _). cbn [h_nf h h_dim] in *. congruence. }
  unfold read_grid_cells.
  cbn [mbind option_bind u_coords u_fnodes u_fnpos u_fcells u_fareas u_fcent u_fnorm u_cfaces u_ctag u_cfpos u_cvol u_ccent u_gcell u_cart u_dim u_nc u_nf u_nn].
  rewrite read_array_ok by (rewrite replicate_length; lia). cbn [mbind option_bind].
  destruct (values scan_int (nc + 1) s10) as [[cfpos s11]|] eqn:E11.
  2: { right. split; [done|]. right. apply (Hinc1 False); [|done]. intros d2 s' (? & ? & ? & ? & ? & Ha & Hb & Hc & He & Hf & Hi). cbn [h_nf h_nc h h_dim] in *. congruence. }
  set (d2 := Part2 fnodes fcells fareas fcent fnorm cfpos).
  assert (H2 : has_part2 h m1 s5 d2 s11) by (by exists s6, s7, s8, s9, s10).
  assert (H2u : ∀ d s', has_part2 h m1 s5 d s' → d = d2 ∧ s' = s11).
  { intros [a1 a2 a3 a4 a5 a6] s' (? & ? & ? & ? & ? & Ha & Hb & Hc & He & Hf & Hi). cbn [h_nf h_nc h h_dim d_fnodes d_fcells d_fareas d_fcent d_fnorm d_cfpos] in *. simplify_eq. done. }
  destruct (C3 _ _ _ _ _ _ _ Hh H1 Hm1 H2) as (m2 & Hm2 & Lm2). change (h_ncf h) with ncf in Lm2. change (d_cfpos d2) with cfpos in Hm2.
  pose proof (values_length _ _ _ _ _ E11) as Lcfpos. pose proof Hm2 as Hm2'. rewrite (last_lookup_n _ nc) in Hm2' by done.
  rewrite (drop_all' _ (nc + 1) (nc + 1)) by done. rewrite app_nil_r, Hm2'. cbn [mbind option_bind]. rewrite to_size_nat.
  assert (Hinc2 : (∀ d, has_part3 h m2 s11 d → False) → ¬ ∃ h d1 d2 d3, complete s h d1 d2 d3).
  { intros HF. 
    intros (h' & d1' & d2' & d3 & H). destruct H as (? & ? & ? & m & m' & H & H' & Hl & Hp & Hl2 & H3). apply Hhu in H as [-> ->]. apply H1u in H' as [-> ->].
    change (d_fnpos d1) with fnpos in Hl. rewrite Hm1 in Hl. assert (m = m1) as -> by (simplify_eq; lia). apply H2u in Hp as [-> ->].
    change (d_cfpos d2) with cfpos in Hl2. rewrite Hm2 in Hl2. assert (m' = m2) as -> by (simplify_eq; lia). eauto. }
  destruct (faces_step tag m2 ncf s11 Lm2) as (r & Er & Hr).
  match goal with |- context [mbind _ ?X] => match X with context [read_tagged] => replace X with (Some r) by (symmetry; exact Er) end end. clear Er.
  cbn [mbind option_bind]. destruct r as [[[cfaces ctag] s12]|].
  2: { right. split; [done|]. right. apply Hinc2. intros d (? & ? & ? & ? & Hx & _). exact (Hr (d_cfaces d) (d_ctag d) _ Hx). }
  destruct Hr as (l & t & Hf & Lcf & Tcf & Tt & Hfu).
  destruct (gcell_step mp (kept oracle) nc s12) as (r & Er & Hr).
  match goal with |- context [mbind _ ?X] => match X with context [discard_ints] => replace X with (Some r) by (symmetry; exact Er) end end. clear Er.
  cbn [mbind option_bind]. destruct r as [[gcell s13]|].
  2: { right. split; [done|]. right. apply Hinc2. intros d (s1x & ? & ? & ? & Hx & Hy & _). apply (Hfu (d_cfaces d) (d_ctag d)) in Hx as ->. exact (Hr (d_gcell d) _ Hy). }
  destruct Hr as (g & Hgc & -> & Hgu).
  rewrite read_array_ok by (rewrite replicate_length; lia). cbn [mbind option_bind].
  destruct (values scan_double nc s13) as [[cvol s14]|] eqn:E14.
  2: { right. split; [done|]. right. apply Hinc2. intros d (s1x & s2x & ? & ? & Hx & Hy & Hz & _). apply (Hfu (d_cfaces d) (d_ctag d)) in Hx as ->. apply (Hgu (d_gcell d)) in Hy as ->. cbn [h_nc h] in Hz. congruence. }
  rewrite read_array_ok by (rewrite replicate_length; lia). cbn [mbind option_bind].
  destruct (values scan_double (nd * nc) s14) as [[ccent s15]|] eqn:E15.
  2: { right. split; [done|]. right. apply Hinc2. intros d (s1x & s2x & ? & ? & Hx & Hy & Hz & Hw). apply (Hfu (d_cfaces d) (d_ctag d)) in Hx as ->. apply (Hgu (d_gcell d)) in Hy as ->. cbn [h_nc h h_dim] in Hz, Hw. congruence. }
  left. set (d3 := Part3 l t g cvol ccent). eexists _, h, d1, d2, d3. split; [reflexivity|]. split; [done|]. split.
  { exists s2, s5, s11, m1, m2. split; [done|]. split; [done|]. split; [done|]. split; [done|]. split; [done|]. by exists s12, s13, s14, s15. }
  pose proof (values_length _ _ _ _ _ E4). pose proof (values_length _ _ _ _ _ E6). pose proof (values_length _ _ _ _ _ E7). pose proof (values_length _ _ _ _ _ E8).
  pose proof (values_length _ _ _ _ _ E9). pose proof (values_length _ _ _ _ _ E10). pose proof (values_length _ _ _ _ _ E14). pose proof (values_length _ _ _ _ _ E15).
  unfold same. cbn [h d1 d2 d3 h_dim h_nc h_nf h_nn h_nfn h_ncf d_cart d_coords d_fnpos d_fnodes d_fcells d_fareas d_fcent d_fnorm d_cfpos d_cfaces d_ctag d_gcell d_cvol d_ccent u_coords u_fnodes u_fnpos u_fcells u_fareas u_fcent u_fnorm u_cfaces u_ctag u_cfpos u_cvol u_ccent u_gcell u_cart u_dim u_nc u_nf u_nn].
  assert (Ec : take nd (cart ++ drop nd [0; 0; 0]%Z) = cart) by (rewrite <- Lcart; apply take_app). rewrite Ec.
  repeat (split; [first [done | lia | assumption | rewrite drop_all' by lia; apply app_nil_r | rewrite app_length, drop_length, replicate_length; lia | apply take_app]|]).
  rewrite drop_all' by lia. apply app_nil_r.
Qed.

Lemma read_loop_bound {A} (scan : S → option (A * S)) n : ∀ fuel i a s a' i' s', read_loop scan fuel n i a s = Some (a', i', s') → i ≤ length a → i' ≤ length a.
Proof using.
  induction fuel as [|fuel IH]; intros i a s a' i' s' E Hi; [done|]. cbn [read_loop] in E. case_decide; [|by simplify_eq].
  destruct (scan s) as [[v s1]|]; [|by simplify_eq]. destruct (upd a i v) as [a1|] eqn:Eu; [|done]. cbn [mbind option_bind] in E.
  apply upd_inv in Eu as [Hl ->]. apply IH in E; rewrite insert_length in *; lia.
Qed.
Lemma read_array_bound {A} (scan : S → option (A * S)) n a s a' s' : read_array scan n a s = Some (Some (a', s')) → ∃ m, n = Z.of_nat m ∧ m ≤ length a.
Proof using.
  unfold read_array. destruct (read_loop _ _ _ _ _ _) as [[[a1 i] s1]|] eqn:E; [|done]. cbn [mbind option_bind]. case_decide; [|done]. intros _.
  exists i. split; [done|]. eapply read_loop_bound; [exact E|lia].
Qed.
Lemma read_array_inv {A} (scan : S → option (A * S)) n a s r : read_array scan (Z.of_nat n) a s = Some r → length a = n → r = values scan n s.
Proof using.
  intros E L. rewrite read_array_ok in E by lia. simplify_eq. destruct (values _ _ _) as [[l s']|]; [|done]. by rewrite drop_all, app_nil_r.
Qed.
Lemma read_tagged_bound n : ∀ fuel i a b s a' b' i' s', read_tagged scan_int fuel n i a b s = Some (a', b', i', s') → i ≤ length a → i' ≤ length a.
Proof using.
  induction fuel as [|fuel IH]; intros i a b s a' b' i' s' E Hi; [done|]. cbn [read_tagged] in E. case_decide; [|by simplify_eq].
  destruct (scan_int s) as [[v s1]|]; [|by simplify_eq]. destruct (upd a i v) as [a1|] eqn:Eu; [|done]. cbn [mbind option_bind] in E.
  apply upd_inv in Eu as [Hl ->]. destruct (scan_int s1) as [[w s2]|]; [|simplify_eq; lia]. destruct (upd b i w) as [b1|] eqn:Ev; [|done]. cbn [mbind option_bind] in E.
  apply IH in E; rewrite insert_length in *; lia.
Qed.

(** Whatever the file holds: a grid is only returned for a consistent file. The
    first premise is the range of int; numbers as in the second could not be
    allocated. *)
Theorem C44_sound oracle s G :
  (∀ s v s', scan_int s = Some (v, s') → (- 2 ^ 31 ≤ v)%Z) →
  (∀ h s1, has_head s h s1 → (Z.of_nat (h_nfn h) < 2 ^ 63 ∧ Z.of_nat (h_ncf h) < 2 ^ 63)%Z) →
  read_grid oracle s = Some (Some G) → consistent s.
Proof using.
  intros Hint Hbig.
  unfold FileModel.read_grid, allocate_grid_from_file. rewrite read_meta_ok. intros E.
  destruct (values scan_ulong 6 s) as [[l s1]|] eqn:E1; [|done].
  destruct (values6 _ _ _ E1) as (nd & nc & nf & nn & nfn & ncf & ->).
  destruct (scan_int s1) as [[tag s1']|] eqn:E2a; [|done]. destruct (scan_int s1') as [[mp s2]|] eqn:E2b; [|done].
  set (h := Head nd nc nf nn nfn ncf tag mp).
  assert (Hhu : ∀ h' s', has_head s h' s' → h' = h ∧ s' = s2).
  { intros h' s' (s1b & Ha & Hb). rewrite E1 in Ha. cbn [values] in Hb. destruct h'. cbn in *. simplify_eq. rewrite E2a, E2b in Hb. by simplify_eq. }
  unfold allocate_grid in E. destruct (next_alloc oracle) as [[] o1]; [|done]. destruct (decide (Forall _ _)) as [Ho|Ho]; [|done].
  cbv beta iota in E. destruct (decide (_ ∨ _)) as [|Hmax] in E; [done|].
  cbn [u_cart u_ctag u_coords u_fnodes u_fnpos u_fcells u_fareas u_fcent u_fnorm u_cfaces u_cfpos u_cvol u_ccent u_gcell u_dim u_nc u_nf u_nn] in E.
  destruct (read_array scan_int (Z.of_nat nd) _ s2) as [[[cart s3]|]|] eqn:E3; [|done|done].
  destruct (read_array_bound _ _ _ _ _ _ E3) as (m & Em & Hm). cbn in Hm. assert (Hd : nd ≤ 3) by lia. clear m Em Hm.
  rewrite read_array_ok in E3 by (cbn; lia).
  destruct (values scan_int nd s2) as [[cart' s3']|] eqn:V3; [|done]. injection E3 as <- ->.
  cbn [mbind option_bind] in E. unfold read_grid_nodes in E.
  cbn [u_cart u_ctag u_coords u_fnodes u_fnpos u_fcells u_fareas u_fcent u_fnorm u_cfaces u_cfpos u_cvol u_ccent u_gcell u_dim u_nc u_nf u_nn] in E.
  destruct (read_array scan_double (Z.of_nat (nd * nn)) _ s3) as [[[coords s4]|]|] eqn:E4; [|done|done].
  apply read_array_inv in E4; [|rewrite replicate_length; lia]. cbn [mbind option_bind] in E. unfold read_grid_faces in E.
  cbn [u_cart u_ctag u_coords u_fnodes u_fnpos u_fcells u_fareas u_fcent u_fnorm u_cfaces u_cfpos u_cvol u_ccent u_gcell u_dim u_nc u_nf u_nn] in E.
  destruct (read_array scan_int (Z.of_nat (nf + 1)) _ s4) as [[[fnpos s5]|]|] eqn:E5; [|done|done].
  apply read_array_inv in E5; [|by rewrite replicate_length]. cbn [mbind option_bind] in E.
  destruct (fnpos !! nf) as [v|] eqn:Ev; [|done]. cbn [mbind option_bind] in E.
  destruct (read_array scan_int (to_size v) _ s5) as [[[fnodes s6]|]|] eqn:E6; [|done|done].
  destruct (read_array_bound _ _ _ _ _ _ E6) as (m1 & Em1 & Hm1). rewrite replicate_length in Hm1. rewrite Em1, read_array_ok in E6 by (by rewrite replicate_length).
  destruct (values scan_int m1 s5) as [[fnodes' s6']|] eqn:V6; [|done]. injection E6 as <- ->. cbn [mbind option_bind] in E.
  destruct (read_array scan_int _ _ s6) as [[[fcells s7]|]|] eqn:E7; [|done|done]. apply read_array_inv in E7; [|by rewrite replicate_length]. cbn [mbind option_bind] in E.
  destruct (read_array scan_double _ _ s7) as [[[fareas s8]|]|] eqn:E8; [|done|done]. apply read_array_inv in E8; [|by rewrite replicate_length]. cbn [mbind option_bind] in E.
  destruct (read_array scan_double _ _ s8) as [[[fcent s9]|]|] eqn:E9; [|done|done]. apply read_array_inv in E9; [|rewrite replicate_length; lia]. cbn [mbind option_bind] in E.
  destruct (read_array scan_double _ _ s9) as [[[fnorm s10]|]|] eqn:E10; [|done|done]. apply read_array_inv in E10; [|rewrite replicate_length; lia]. cbn [mbind option_bind] in E.
  unfold read_grid_cells in E.
  cbn [u_cart u_ctag u_coords u_fnodes u_fnpos u_fcells u_fareas u_fcent u_fnorm u_cfaces u_cfpos u_cvol u_ccent u_gcell u_dim u_nc u_nf u_nn] in E.
  destruct (read_array scan_int (Z.of_nat (nc + 1)) _ s10) as [[[cfpos s11]|]|] eqn:E11; [|done|done].
  apply read_array_inv in E11; [|by rewrite replicate_length]. cbn [mbind option_bind] in E.
  destruct (cfpos !! nc) as [w|] eqn:Ew; [|done]. cbn [mbind option_bind] in E.
  assert (Hw : ∃ m2, to_size w = Z.of_nat m2 ∧ m2 ≤ ncf).
  { destruct (decide (tag = 0%Z)) as [Ht|Ht].
    - destruct (read_array scan_int (to_size w) _ s11) as [[[a sx]|]|] eqn:Ea; [|done|done]. apply read_array_bound in Ea as (m2 & ? & Hl). rewrite replicate_length in Hl. eauto.
    - destruct (read_tagged _ _ _ _ _ _ _) as [[[[a b] i] sx]|] eqn:Ea; [|done]. cbn [mbind option_bind] in E. case_decide as Hi; [|done].
      apply read_tagged_bound in Ea; [|lia]. rewrite replicate_length in Ea. eauto. }
  clear E.
  destruct Hw as (m2 & Em2 & Hm2).
  assert (Hrange : ∀ n s l s' x, values scan_int n s = Some (l, s') → x ∈ l → (- 2 ^ 31 ≤ x)%Z).
  { clear - Hint. induction n as [|n IH]; intros s l s' x E Hx; cbn [values] in E; [simplify_eq; by apply elem_of_nil in Hx|].
    destruct (scan_int s) as [[v s1]|] eqn:Es; [|done]. destruct (values scan_int n s1) as [[l1 s2]|] eqn:El; [|done]. simplify_eq.
    apply elem_of_cons in Hx as [->|Hx]; eauto. }
  assert (Hh : has_head s h s2). { exists s1. split; [done|]. cbn [values]. by rewrite E2a, E2b. }
  destruct (Hbig _ _ Hh) as [B1 B2]. change (h_nfn h) with nfn in B1. change (h_ncf h) with ncf in B2.
  assert (v = Z.of_nat m1) as ->.
  { assert (- 2 ^ 31 ≤ v)%Z by (eapply Hrange; [symmetry; exact E5|]; eapply elem_of_list_lookup_2; exact Ev).
    unfold to_size in Em1. case_decide; lia. }
  assert (w = Z.of_nat m2) as ->.
  { assert (- 2 ^ 31 ≤ w)%Z by (eapply Hrange; [symmetry; exact E11|]; eapply elem_of_list_lookup_2; exact Ew).
    unfold to_size in Em2. case_decide; lia. }
  symmetry in E4, E5, E7, E8, E9, E10, E11.
  set (d1 := Part1 cart' coords fnpos).
  assert (H1u : ∀ d s', has_part1 h s2 d s' → d = d1 ∧ s' = s5).
  { intros [a b c] s' (? & ? & Ha & Hb & Hc). cbn in Ha, Hb, Hc. simplify_eq. done. }
  pose proof (values_length _ _ _ _ _ E5) as Lfnpos. pose proof (values_length _ _ _ _ _ E11) as Lcfpos.
  assert (Hl1 : last fnpos = Some (Z.of_nat m1)) by (by rewrite (last_lookup_n _ nf)).
  split; [|split].
  - intros h' s' H. apply Hhu in H as [-> ->]. cbn [h h_dim h_nc h_nf h_nn]. unfold int_max in *. lia.
  - intros h' s' d s'' H H'. apply Hhu in H as [-> ->]. apply H1u in H' as [-> ->]. by exists m1.
  - intros h' s' d s'' m1' d2 s3' H H' Hl H2. apply Hhu in H as [-> ->]. apply H1u in H' as [-> ->].
    change (d_fnpos d1) with fnpos in Hl. assert (m1' = m1) as -> by (rewrite Hl1 in Hl; simplify_eq; lia).
    destruct d2 as [a1 a2 a3 a4 a5 a6]. destruct H2 as (? & ? & ? & ? & ? & Ha & Hb & Hc & He & Hf & Hi).
    cbn [h_nf h_nc h h_dim d_fnodes d_fcells d_fareas d_fcent d_fnorm d_cfpos] in *. simplify_eq.
    exists m2. split; [|done]. by rewrite (last_lookup_n _ nc).
Qed.
End props.
Print Assumptions C44_read.
Print Assumptions C44_sound.

(** Files of whole numbers. *)
Definition scan_z (s : list Z) : option (Z * list Z) := match s with v :: s => Some (v, s) | [] => None end.
Definition scan_n (s : list Z) : option (nat * list Z) := match s with v :: s => Some (Z.to_nat v, s) | [] => None end.
Notation rd := (FileModel.read_grid scan_n scan_z scan_z 99%Z 99%Z).
(** One cell in one dimension with tags and a map. *)
Definition file1 : list Z := [1; 1; 2; 2; 2; 2; 1; 1;  1;  10; 20;  0; 1; 2;  0; 1;  -1; 0; 0; -1;  5; 6;  10; 20;  1; 1;  0; 2;  0; 0; 1; 1;  7;  10;  15]%Z.
Definition grid1 : ugrid := UGrid 1 1 2 2 [10; 20]%Z [0; 1]%Z [0; 1; 2]%Z [-1; 0; 0; -1]%Z [5; 6]%Z [10; 20]%Z [1; 1]%Z [0; 1]%Z (Some [0; 1]%Z) [0; 2]%Z [10]%Z [15]%Z (Some [7]%Z) [1; 1; 1]%Z.
Example C44_example : rd [] file1 = Some (Some grid1).
Proof. vm_compute. reflexivity. Qed.
Example C44_example_consistent : consistent scan_n scan_z scan_z file1.
Proof.
  assert (Hhu : ∀ h s', has_head scan_n scan_z file1 h s' → h = Head 1 1 2 2 2 2 1 1 ∧ s' = drop 8 file1).
  { intros [] s' (s1 & Ha & Hb). cbn in Ha, Hb. simplify_eq. cbn in Hb. by simplify_eq. }
  assert (H1u : ∀ d s', has_part1 scan_z scan_z (Head 1 1 2 2 2 2 1 1) (drop 8 file1) d s' → d = Part1 [1]%Z [10; 20]%Z [0; 1; 2]%Z ∧ s' = drop 14 file1).
  { intros [] s' (s1 & s2 & Ha & Hb & Hc). cbn in Ha, Hb, Hc. simplify_eq. cbn in Hb. simplify_eq. cbn in Hc. by simplify_eq. }
  split; [|split].
  - intros h s1 H. apply Hhu in H as [-> ->]. cbn. unfold int_max. lia.
  - intros h s1 d1 s2 H H1. apply Hhu in H as [-> ->]. apply H1u in H1 as [-> ->]. by exists 2.
  - intros h s1 d1 s2 m1 d2 s3 H H1 Hl H2. apply Hhu in H as [-> ->]. apply H1u in H1 as [-> ->]. cbn in Hl. assert (m1 = 2) as -> by (simplify_eq; lia).
    destruct H2 as (? & ? & ? & ? & ? & Ha & Hb & Hc & He & Hf & Hi). destruct d2. cbn in *. simplify_eq. cbn in *. simplify_eq. cbn in *. simplify_eq. cbn in *. simplify_eq. cbn in *. simplify_eq. cbn in *. simplify_eq. by exists 2.
Qed.
(** A file that ends too soon, and lack of memory. *)
Example C44_example_short : rd [] (take 30 file1) = Some None.
Proof. vm_compute. reflexivity. Qed.
Example C44_example_memory : rd [true; true; false] file1 = Some None.
Proof. vm_compute. reflexivity. Qed.
Example C44_example_map : rd (replicate 13 true ++ [false]) file1 = Some (Some (UGrid 1 1 2 2 [10; 20]%Z [0; 1]%Z [0; 1; 2]%Z [-1; 0; 0; -1]%Z [5; 6]%Z [10; 20]%Z [1; 1]%Z [0; 1]%Z (Some [0; 1]%Z) [0; 2]%Z [10]%Z [15]%Z None [1; 1; 1]%Z)).
Proof. vm_compute. reflexivity. Qed.

(** "for every file content" is false: a dimension above 3 is stored behind
    cartdims, *)
Theorem C44_dimension_refuted : ∃ s : list Z, rd [] s = None.
Proof. exists [4; 1; 2; 2; 2; 2; 1; 1;  1; 1; 1; 1]%Z. vm_compute. reflexivity. Qed.
(** positions of nodes beyond the announced number behind face_nodes, *)
Theorem C44_positions_refuted : ∃ s : list Z, s !! 4 = Some 2%Z ∧ s !! 13 = Some 3%Z ∧ rd [] s = None.
Proof. exists [1; 1; 2; 2; 2; 2; 1; 1;  1;  10; 20;  0; 1; 3;  0; 1; 0]%Z. vm_compute. done. Qed.
(** and so are negative positions of faces behind cell_faces. *)
Theorem C44_negative_refuted : ∃ s : list Z, s !! 27 = Some (-1)%Z ∧ rd [] s = None.
Proof. exists [1; 1; 2; 2; 2; 2; 0; 0;  1;  10; 20;  0; 1; 2;  0; 1;  -1; 0; 0; -1;  5; 6;  10; 20;  1; 1;  0; -1;  0; 0; 1]%Z. vm_compute. done. Qed.
Print Assumptions C44_dimension_refuted.
Print Assumptions C44_positions_refuted.
Print Assumptions C44_negative_refuted.
