(** Counted loops that write streams. *)
From Verif Require Import Base LoopModel.

Lemma for_loop_ext {S} n lo (f h : nat → S → option S) s :
  (∀ i s, lo ≤ i < lo + n → f i s = h i s) → for_loop n lo f s = for_loop n lo h s.
Proof.
  revert lo s. induction n as [|n IH]; intros lo s H; [done|]. simpl. rewrite H by lia.
  destruct (h lo s); [|done]. simpl. apply IH. intros i s' Hi. apply H. lia.
Qed.
Lemma for_loop_app {S} n m lo (f : nat → S → option S) s :
  for_loop (n + m) lo f s = (s ← for_loop n lo f s; for_loop m (lo + n) f s).
Proof.
  revert lo s. induction n as [|n IH]; intros lo s; simpl; [by rewrite Nat.add_0_r|].
  destruct (f lo s); [|done]. simpl. rewrite IH. by replace (lo + Datatypes.S n) with (Datatypes.S (lo + n)) by lia.
Qed.
(** Invariants. *)
Lemma for_loop_inv {S} (P : nat → S → Prop) n lo (f : nat → S → option S) s :
  P lo s → (∀ i s, lo ≤ i < lo + n → P i s → ∃ s', f i s = Some s' ∧ P (i + 1) s') →
  ∃ s', for_loop n lo f s = Some s' ∧ P (lo + n) s'.
Proof.
  revert lo s. induction n as [|n IH]; intros lo s H0 Hs; simpl.
  - exists s. by rewrite Nat.add_0_r.
  - destruct (Hs lo s ltac:(lia) H0) as (s1 & E & H1). rewrite E. simpl.
    replace (lo + Datatypes.S n) with (Datatypes.S lo + n) by lia. apply IH.
    + by replace (Datatypes.S lo) with (lo + 1) by lia.
    + intros i s' Hi. apply Hs. lia.
Qed.

(** Two independent computations side by side. *)
Definition par {S T} (f : S → option S) (h : T → option T) (st : S * T) : option (S * T) :=
  a ← f st.1; b ← h st.2; Some (a, b).
Lemma for_loop_par {S T} n lo (f : nat → S → option S) (h : nat → T → option T) s :
  for_loop n lo (λ i, par (f i) (h i)) s = par (for_loop n lo f) (for_loop n lo h) s.
Proof.
  revert lo s. induction n as [|n IH]; intros lo [a b]; [done|]. cbn [for_loop].
  destruct (f lo a) as [a'|] eqn:Ef; [destruct (h lo b) as [b'|] eqn:Eh|].
  - assert (par (f lo) (h lo) (a, b) = Some (a', b')) as -> by (unfold par; cbn [fst snd]; by rewrite Ef, Eh).
    cbn [mbind option_bind]. rewrite IH. unfold par. cbn [fst snd]. rewrite Ef, Eh. done.
  - assert (par (f lo) (h lo) (a, b) = None) as -> by (unfold par; cbn [fst snd]; by rewrite Ef, Eh).
    unfold par. cbn [fst snd]. rewrite Ef, Eh. cbn [mbind option_bind]. by destruct (for_loop n (Datatypes.S lo) f a').
  - assert (par (f lo) (h lo) (a, b) = None) as -> by (unfold par; cbn [fst snd]; by rewrite Ef).
    unfold par. cbn [fst snd]. by rewrite Ef.
Qed.
Lemma par_ext {S T} (f f' : S → option S) (h h' : T → option T) s :
  f s.1 = f' s.1 → h s.2 = h' s.2 → par f h s = par f' h' s.
Proof. intros H1 H2. unfold par. by rewrite H1, H2. Qed.

(** Streams. *)
Lemma puts_app {A} (s : stream A) l l' : puts s (l ++ l') = (s ← puts s l; puts s l').
Proof. revert s. induction l as [|v l IH]; intros s; [done|]. simpl. destruct (put s v); [|done]. simpl. apply IH. Qed.
Lemma puts_ok {A} l (s : stream A) : st_pos s + length l ≤ length (st_arr s) →
  puts s l = Some (Stream (take (st_pos s) (st_arr s) ++ l ++ drop (st_pos s + length l) (st_arr s)) (st_pos s + length l)).
Proof.
  revert s. induction l as [|v l IH]; intros [a p] H; cbn [st_arr st_pos puts length] in *.
  - rewrite Nat.add_0_r. by rewrite app_nil_l, take_drop.
  - unfold put. cbn [st_arr st_pos]. rewrite upd_Some by lia. cbn [mbind option_bind].
    rewrite IH by (cbn [st_arr st_pos]; rewrite insert_length; lia). cbn [st_arr st_pos]. f_equal. f_equal; [|lia].
    rewrite insert_take_drop by lia.
    assert (E : take (S p) (take p a ++ v :: drop (S p) a) = take p a ++ [v]).
    { rewrite take_app_ge by (rewrite take_length; lia). rewrite take_length. f_equal.
      replace (S p - p `min` length a) with 1 by lia. done. }
    rewrite E, <- app_assoc. simpl. f_equal. f_equal. f_equal.
    rewrite drop_app_ge by (rewrite take_length; lia). rewrite take_length.
    replace (S (p + length l) - p `min` length a) with (S (length l)) by lia. simpl. rewrite drop_drop. f_equal. lia.
Qed.
(** Filling an array from start to end. *)
Lemma puts_open {A} (l a : list A) : length l = length a → puts (open a) l = Some (Stream l (length a)).
Proof.
  intros H. rewrite puts_ok by (simpl; lia). simpl. rewrite drop_ge by lia. rewrite app_nil_r, H. done.
Qed.

Definition flat {A} (n : nat) (ch : nat → list A) : list A := concat (map ch (seq 0 n)).
Lemma for_loop_puts {A} n lo (ch : nat → list A) s :
  for_loop n lo (λ i s, puts s (ch i)) s = puts s (concat (map ch (seq lo n))).
Proof.
  revert lo s. induction n as [|n IH]; intros lo s; [done|]. simpl. rewrite puts_app.
  destruct (puts s (ch lo)); [|done]. simpl. apply IH.
Qed.
Lemma for_loop_puts0 {A} n (ch : nat → list A) s : for_loop n 0 (λ i s, puts s (ch i)) s = puts s (flat n ch).
Proof. apply for_loop_puts. Qed.
Lemma for_loop_const {S} n m lo lo' (f : S → option S) s :
  for_loop n lo (λ _ s, for_loop m lo' (λ _, f) s) s = for_loop (n * m) 0 (λ _, f) s.
Proof.
  assert (G : ∀ m lo lo' s, for_loop m lo (λ _, f) s = for_loop m lo' (λ _, f) s).
  { clear. induction m as [|m IH]; intros lo lo' s; [done|]. simpl. destruct (f s); [|done]. simpl. apply IH. }
  revert lo s. induction n as [|n IH]; intros lo s; [done|]. cbn [for_loop]. simpl (_ * _).
  rewrite for_loop_app. rewrite (G m lo' 0). destruct (for_loop m 0 (λ _, f) s) as [s'|]; [|done]. cbn [mbind option_bind].
  rewrite IH. apply G.
Qed.

Lemma flat_length {A} n (ch : nat → list A) L : (∀ i, i < n → length (ch i) = L) → length (flat n ch) = n * L.
Proof.
  unfold flat. intros H. assert (G : ∀ k m, k + m ≤ n → length (concat (map ch (seq k m))) = m * L).
  { intros k m. revert k. induction m as [|m IH]; intros k Hk; [done|]. simpl. rewrite app_length, IH, H by lia. lia. }
  apply G. lia.
Qed.
Lemma flat_lookup {A} n (ch : nat → list A) L i t : (∀ i, i < n → length (ch i) = L) → i < n → t < L →
  flat n ch !! (L * i + t) = ch i !! t.
Proof.
  unfold flat. intros H Hi Ht.
  assert (G : ∀ i k m, k + m ≤ n → i < m → concat (map ch (seq k m)) !! (L * i + t) = ch (k + i) !! t).
  { clear i Hi. induction i as [|i IH]; intros k [|m] Hk Hi; try lia; simpl.
    - rewrite lookup_app_l by (rewrite H by lia; lia). by rewrite Nat.mul_0_r, Nat.add_0_r.
    - rewrite lookup_app_r by (rewrite H by lia; lia). rewrite H by lia.
      replace (L * S i + t - L) with (L * i + t) by lia. rewrite IH by lia. by replace (S k + i) with (k + S i) by lia. }
  by rewrite (G i 0 n) by lia.
Qed.
Lemma flat_ext {A} n (ch ch' : nat → list A) : (∀ i, i < n → ch i = ch' i) → flat n ch = flat n ch'.
Proof.
  intros H. unfold flat. f_equal. apply map_ext_in. intros i Hi. apply in_seq in Hi. apply H. lia.
Qed.

(** Repeated [bump]. *)
Lemma bumps_ok w n s : (∀ k, k ≤ st_pos s → st_arr s !! k = Some (w * k)) → st_pos s + n < length (st_arr s) →
  ∃ s', for_loop n 0 (λ _, bump w) s = Some s' ∧ st_pos s' = st_pos s + n ∧ length (st_arr s') = length (st_arr s) ∧
    (∀ k, k ≤ st_pos s + n → st_arr s' !! k = Some (w * k)).
Proof.
  intros H0 Hn.
  destruct (for_loop_inv (λ i s', st_pos s' = st_pos s + i ∧ length (st_arr s') = length (st_arr s) ∧
    ∀ k, k ≤ st_pos s + i → st_arr s' !! k = Some (w * k)) n 0 (λ _, bump w) s) as (s' & E & H).
  - rewrite Nat.add_0_r. done.
  - intros i s1 Hi (Hp & Hl & Hv). unfold bump. rewrite Hp, Hv by lia. cbn [mbind option_bind].
    rewrite upd_Some by lia. cbn [mbind option_bind]. eexists. split; [done|]. cbn [st_pos st_arr]. split_and!.
    + lia.
    + by rewrite insert_length.
    + intros k Hk. destruct (decide (k = st_pos s + i + 1)) as [->|].
      * rewrite list_lookup_insert by lia. f_equal. lia.
      * rewrite list_lookup_insert_ne by lia. apply Hv. lia.
  - exists s'. done.
Qed.
(** From the beginning: the multiples of [w]. *)
Lemma bumps_open w n a : length a = n + 1 → a !! 0 = Some 0 →
  for_loop n 0 (λ _, bump w) (open a) = Some (Stream (map (λ k, w * k) (seq 0 (n + 1))) n).
Proof.
  intros Hl H0. destruct (bumps_ok w n (open a)) as ([a' p] & E & Hp & Hla & Hv).
  { intros k Hk. simpl in Hk. assert (k = 0) as -> by lia. simpl. by rewrite Nat.mul_0_r. }
  { simpl. lia. }
  rewrite E. cbn [st_pos st_arr open] in *. subst p. f_equal. f_equal. apply list_eq. intros k.
  destruct (decide (k ≤ n)) as [Hk|Hk].
  - rewrite Hv by lia. rewrite list_lookup_fmap. rewrite (lookup_seq_lt 0 (n+1) k) by lia. done.
  - rewrite !lookup_ge_None_2; [done| |lia]. rewrite map_length, seq_length. lia.
Qed.

(** Numbering of triples. *)
Definition num (A B i j k : nat) : nat := i + A * (j + B * k).
Lemma pair_inj A i i' a b : i < A → i' < A → i + A * a = i' + A * b → i = i' ∧ a = b.
Proof.
  intros Hi Hi' H. assert (a = b).
  { destruct (decide (a < b)); [nia|]. destruct (decide (b < a)); [nia|lia]. }
  subst. lia.
Qed.
Lemma num_inj A B i j k i' j' k' : i < A → i' < A → j < B → j' < B →
  num A B i j k = num A B i' j' k' → i = i' ∧ j = j' ∧ k = k'.
Proof.
  unfold num. intros Hi Hi' Hj Hj' H. apply pair_inj in H as [-> H]; [|done..]. apply pair_inj in H as [-> ->]; done.
Qed.
Lemma num_lt A B C i j k : i < A → j < B → k < C → num A B i j k < A * B * C.
Proof. unfold num. intros. assert (j + B * k < B * C) by nia. nia. Qed.
Lemma num_surj A B C c : c < A * B * C → ∃ i j k, i < A ∧ j < B ∧ k < C ∧ c = num A B i j k.
Proof.
  intros H. assert (A ≠ 0 ∧ B ≠ 0) as [HA HB] by (split; intros ->; lia).
  exists (c mod A), ((c / A) mod B), ((c / A) / B). unfold num. split_and!.
  - by apply Nat.mod_upper_bound.
  - by apply Nat.mod_upper_bound.
  - apply Nat.div_lt_upper_bound; [done|]. apply Nat.div_lt_upper_bound; [done|]. lia.
  - pose proof (Nat.div_mod (c / A) B HB) as E1. rewrite (Nat.add_comm ((c/A) mod B)). rewrite <- E1.
    pose proof (Nat.div_mod c A HA). lia.
Qed.

Definition flat3 {T} (A B C : nat) (ch : nat → nat → nat → list T) : list T :=
  flat C (λ k, flat B (λ j, flat A (λ i, ch i j k))).
Section flat3.
Context {T : Type} (A B C L : nat) (ch : nat → nat → nat → list T).
Hypothesis Hch : ∀ i j k, i < A → j < B → k < C → length (ch i j k) = L.
Lemma flat3_length : length (flat3 A B C ch) = A * B * C * L.
Proof.
  unfold flat3. rewrite (flat_length _ _ (B * (A * L))); [nia|]. intros k Hk.
  rewrite (flat_length _ _ (A * L)); [done|]. intros j Hj.
  rewrite (flat_length _ _ L); [done|]. intros i Hi. by apply Hch.
Qed.
Lemma flat3_lookup i j k t : i < A → j < B → k < C → t < L →
  flat3 A B C ch !! (L * num A B i j k + t) = ch i j k !! t.
Proof.
  intros Hi Hj Hk Ht. unfold flat3, num.
  replace (L * (i + A * (j + B * k)) + t) with ((B * (A * L)) * k + ((A * L) * j + (L * i + t))) by nia.
  assert (L * i + t < A * L) by nia. assert ((A * L) * j + (L * i + t) < B * (A * L)) by nia.
  rewrite (flat_lookup _ _ (B * (A * L))); [|clear H H0|done|done].
  2:{ intros k' Hk'. rewrite (flat_length _ _ (A * L)); [done|]. intros j' Hj'.
      rewrite (flat_length _ _ L); [done|]. intros i' Hi'. by apply Hch. }
  rewrite (flat_lookup _ _ (A * L)); [|clear H H0|done|done].
  2:{ intros j' Hj'. rewrite (flat_length _ _ L); [done|]. intros i' Hi'. by apply Hch. }
  exact (flat_lookup A (λ i, ch i j k) L i t (λ i' Hi', Hch i' j k Hi' Hj Hk) Hi Ht).
Qed.
End flat3.

(** Triple loops. *)
Definition nest3 {S} (A B C : nat) (body : nat → nat → nat → S → option S) (s : S) : option S :=
  for_loop C 0 (λ k, for_loop B 0 (λ j, for_loop A 0 (λ i, body i j k))) s.
Lemma nest3_ext {S} A B C (f h : nat → nat → nat → S → option S) s :
  (∀ i j k s, i < A → j < B → k < C → f i j k s = h i j k s) → nest3 A B C f s = nest3 A B C h s.
Proof.
  intros H. unfold nest3. apply for_loop_ext. intros k s1 Hk. apply for_loop_ext. intros j s2 Hj.
  apply for_loop_ext. intros i s3 Hi. apply H; lia.
Qed.
Lemma nest3_par {S T} A B C (f : nat → nat → nat → S → option S) (h : nat → nat → nat → T → option T) s :
  nest3 A B C (λ i j k, par (f i j k) (h i j k)) s = par (nest3 A B C f) (nest3 A B C h) s.
Proof.
  unfold nest3. rewrite <- for_loop_par. apply for_loop_ext. intros k s1 _. rewrite <- for_loop_par.
  apply for_loop_ext. intros j s2 _. by rewrite <- for_loop_par.
Qed.
Lemma nest3_puts {T} A B C (ch : nat → nat → nat → list T) s :
  nest3 A B C (λ i j k s, puts s (ch i j k)) s = puts s (flat3 A B C ch).
Proof.
  unfold nest3, flat3. rewrite <- for_loop_puts0. apply for_loop_ext. intros k s1 _.
  rewrite <- for_loop_puts0. apply for_loop_ext. intros j s2 _. apply for_loop_puts0.
Qed.
Lemma nest3_const {S} A B C (f : S → option S) s :
  nest3 A B C (λ _ _ _, f) s = for_loop (A * B * C) 0 (λ _, f) s.
Proof.
  unfold nest3. replace (A * B * C) with (C * (B * A)) by lia. rewrite <- (for_loop_const C (B * A) 0 0 f s).
  apply for_loop_ext. intros k s1 _. rewrite <- (for_loop_const B A 0 0 f s1). done.
Qed.
Lemma bumps_app w n m s : (s ← for_loop n 0 (λ _, bump w) s; for_loop m 0 (λ _, bump w) s) = for_loop (n + m) 0 (λ _, bump w) s.
Proof.
  rewrite for_loop_app. destruct (for_loop n 0 (λ _, bump w) s); [|done]. simpl.
  assert (G : ∀ m lo lo' (s : stream nat), for_loop m lo (λ _, bump w) s = for_loop m lo' (λ _, bump w) s).
  { clear. induction m as [|m IH]; intros lo lo' s; [done|]. simpl. destruct (bump w s); [|done]. simpl. apply IH. }
  apply G.
Qed.
