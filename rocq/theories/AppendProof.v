(** Lemmas about the growing tables. *)
From Verif Require Import Base AppendModel AppendSpec.

Definition agree {A} (n : nat) (l l' : list A) : Prop := ∀ i, i < n → l' !! i = l !! i.
Lemma agree_refl {A} n (l : list A) : agree n l l.
Proof. done. Qed.
Lemma brealloc_spec {A} (j : A) n b o : sound b →
  brealloc j n b o = Some (if fst (next_alloc o) then Some (realloc_arr j n (contents b)) else None, snd (next_alloc o)).
Proof.
  intros Hb. unfold brealloc. destruct b as [|l|]; [| |done]; destruct (next_alloc o) as [ok o']; simpl.
  - destruct ok; [|done]. unfold realloc_arr. rewrite take_nil. simpl. by rewrite Nat.sub_0_r.
  - done.
Qed.
Lemma realloc_agree {A} (j : A) n m l : m ≤ n → m ≤ length l → agree m l (realloc_arr j n l).
Proof. intros H1 H2 i Hi. apply realloc_arr_lookup; lia. Qed.
Lemma deref_nonempty {A} (b : buf A) i : i < length (contents b) → deref b = Some (contents b).
Proof. destruct b; simpl; [lia|done|lia]. Qed.
Lemma put1_ok {A} (b : buf A) i x : i < length (contents b) → put1 b i x = Some (Live (<[i:=x]> (contents b))).
Proof. intros H. unfold put1. rewrite (deref_nonempty _ _ H). cbn [mbind option_bind]. by rewrite upd_Some. Qed.
Lemma putn_ok {A} (b : buf A) i xs : sound b → i + length xs ≤ length (contents b) →
  ∃ b', putn b i xs = Some b' ∧ sound b' ∧ length (contents b') = length (contents b) ∧ agree i (contents b) (contents b') ∧
    slice (contents b') i (length xs) = Some xs ∧ (∀ k, i + length xs ≤ k → contents b' !! k = contents b !! k) ∧ (b = Null → b' = Null).
Proof.
  intros Hs H. unfold putn. destruct xs as [|x xs].
  - exists b. split_and!; try done.
  - rewrite (deref_nonempty b i) by (simpl in H; lia). cbn [mbind option_bind].
    rewrite memcpy_Some by done. cbn [mbind option_bind]. eexists. split; [done|].
    pose proof (memcpy_Some (contents b) i (x :: xs) H) as E. split_and!.
    + done.
    + by apply memcpy_length in E.
    + intros k Hk. by apply (memcpy_lookup_lt _ _ _ _ _ E).
    + by apply (slice_memcpy _ _ _ _ E).
    + intros k Hk. by apply (memcpy_lookup_ge _ _ _ _ _ E).
    + intros ->. simpl in H. lia.
Qed.
Lemma slice_agree {A} n (l l' : list A) off k : agree n l l' → off + k ≤ n → slice l' off k = slice l off k.
Proof. intros H Hk. apply slice_ext. intros i Hi1 Hi2. apply H. lia. Qed.
Lemma alloc_size_ge n c : n ≤ alloc_size n c ∧ c ≤ alloc_size n c.
Proof. unfold alloc_size. destruct (decide (c < n)); [|lia]. cbv zeta. destruct (decide (c * 2 < n)); lia. Qed.

Lemma got_if {A} (b : bool) (x : list A) : got (if b then Some x else None) = b.
Proof. by destruct b. Qed.
Section flow.
Context {V T : Type}.
Variables (jt : T) (jv : V) (jn : nat) (jz : Z).
Notation fbc := (fbc V T).
Record fbc_inv (s : fbc) : Prop := {
  i_st : sound (f_type s); i_sv : sound (f_value s); i_sf : sound (f_face s);
  i_pos : ∃ l, f_pos s = Live l;
  i_lt : f_ccpty s ≤ length (contents (f_type s)); i_lv : f_ccpty s ≤ length (contents (f_value s));
  i_lp : f_ccpty s + 1 ≤ length (contents (f_pos s)); i_lf : f_fcpty s ≤ length (contents (f_face s));
  i_n : f_nbc s ≤ f_ccpty s;
  i_0 : contents (f_pos s) !! 0 = Some 0;
  i_tot : ∃ tot, contents (f_pos s) !! f_nbc s = Some tot ∧ tot ≤ f_fcpty s ∧
            ∀ i p, i ≤ f_nbc s → contents (f_pos s) !! i = Some p → p ≤ tot }.
(** Agreement on everything in use. *)
Definition same (s s' : fbc) : Prop :=
  f_nbc s' = f_nbc s ∧ agree (f_nbc s) (contents (f_type s)) (contents (f_type s')) ∧
  agree (f_nbc s) (contents (f_value s)) (contents (f_value s')) ∧
  agree (f_nbc s + 1) (contents (f_pos s)) (contents (f_pos s')) ∧
  ∀ tot, contents (f_pos s) !! f_nbc s = Some tot → agree tot (contents (f_face s)) (contents (f_face s')).
Lemma same_trans s1 s2 s3 : same s1 s2 → same s2 s3 → same s1 s3.
Proof.
  intros (N & A1 & A2 & A3 & A4) (N' & B1 & B2 & B3 & B4). rewrite N in *. split_and!; [done|..].
  - intros i Hi. rewrite B1 by done. auto.
  - intros i Hi. rewrite B2 by done. auto.
  - intros i Hi. rewrite B3 by done. auto.
  - intros tot Ht i Hi. rewrite (B4 tot); [by apply (A4 tot)| |done]. rewrite A3 by lia. done.
Qed.
Lemma same_holds s s' bcs : fbc_inv s → same s s' → holds_bcs s bcs → holds_bcs s' bcs.
Proof.
  intros HI (N & A1 & A2 & A3 & A4) (Hn & H0 & H). destruct (i_tot s HI) as (tot & Ht & Hle & Hmono). split_and!.
  - congruence.
  - rewrite A3 by lia. done.
  - intros i b Hb. pose proof (lookup_lt_Some _ _ _ Hb) as Hlti. destruct (H i b Hb) as (H1 & H2 & p & H3 & H4 & H5).
    split_and!; [rewrite A1 by lia; done|rewrite A2 by lia; done|]. exists p. rewrite !A3 by lia. split_and!; [done|done|].
    rewrite (slice_agree tot _ _ _ _ (A4 tot Ht)); [done|]. apply (Hmono (S i)); [lia|done].
Qed.
Lemma expand_ok n nf s o : fbc_inv s →
  ∃ ok s' o', expand_tables jt jv jn jz n nf s o = Some (ok, s', o') ∧ fbc_inv s' ∧ same s s' ∧
    (ok = true → n ≤ f_ccpty s' ∧ nf ≤ f_fcpty s').
Proof.
  intros HI. unfold expand_tables.
  set (first := if decide (n ≤ f_ccpty s) then _ else _).
  assert (E1 : ∃ okc s1 o1, first = Some (okc, s1, o1) ∧ fbc_inv s1 ∧ same s s1 ∧ (okc = true → n ≤ f_ccpty s1)).
  { subst first. destruct (decide (n ≤ f_ccpty s)) as [Hc|Hc].
    - exists true, s, o. by (split_and!; try done; unfold same; split_and!).
    - cbv zeta. pose proof (alloc_size_ge n (f_ccpty s)) as [Z1 Z2]. set (sz := alloc_size n (f_ccpty s)) in *.
      destruct HI as [ist isv isf [pl ipos] ilt ilv ilp ilf inn i0 itot].
      rewrite brealloc_spec by done. cbn [mbind option_bind]. destruct (next_alloc o) as [b1 o1]. cbn [fst snd].
      rewrite brealloc_spec by done. cbn [mbind option_bind]. destruct (next_alloc o1) as [b2 o2]. cbn [fst snd].
      rewrite brealloc_spec by (by rewrite ipos). cbn [mbind option_bind]. destruct (next_alloc o2) as [b3 o3]. cbn [fst snd].
      cbv zeta. rewrite !got_if. eexists _, _, _. split; [done|].
      set (kt := keep (f_type s) _). set (kv := keep (f_value s) _). set (kp := keep (f_pos s) _).
      assert (K1 : sound kt ∧ f_ccpty s ≤ length (contents kt) ∧ (b1 = true → sz ≤ length (contents kt)) ∧ agree (f_ccpty s) (contents (f_type s)) (contents kt)).
      { subst kt. destruct b1; cbn [keep]; cbn [contents].
        - rewrite realloc_arr_length. split_and!; [done|lia|done|]. apply realloc_agree; lia.
        - split_and!; [done|lia|done|done]. }
      assert (K2 : sound kv ∧ f_ccpty s ≤ length (contents kv) ∧ (b2 = true → sz ≤ length (contents kv)) ∧ agree (f_ccpty s) (contents (f_value s)) (contents kv)).
      { subst kv. destruct b2; cbn [keep]; cbn [contents].
        - rewrite realloc_arr_length. split_and!; [done|lia|done|]. apply realloc_agree; lia.
        - split_and!; [done|lia|done|done]. }
      assert (K3 : (∃ l, kp = Live l) ∧ f_ccpty s + 1 ≤ length (contents kp) ∧ (b3 = true → sz + 1 ≤ length (contents kp)) ∧
                   agree (f_ccpty s + 1) (contents (f_pos s)) (contents kp)).
      { subst kp. destruct b3; cbn [keep]; cbn [contents].
        - rewrite realloc_arr_length. split_and!; [eauto|lia|done|]. apply realloc_agree; lia.
        - split_and!; [eauto|lia|done|done]. }
      destruct K1 as (K1a & K1b & K1c & K1d), K2 as (K2a & K2b & K2c & K2d), K3 as (K3a & K3b & K3c & K3d).
      split_and!.
      + constructor; cbn [f_nbc f_ccpty f_fcpty f_type f_value f_pos f_face]; try done.
        * destruct b1, b2, b3; cbn [andb]; auto.
        * destruct b1, b2, b3; cbn [andb]; auto.
        * destruct b1, b2, b3; cbn [andb]; auto.
        * destruct (b1 && b2 && b3); lia.
        * rewrite K3d by lia. done.
        * destruct itot as (tot & Ht & Hle & Hm). exists tot. rewrite K3d by lia. split_and!; [done|done|].
          intros i p Hi. rewrite K3d by lia. by apply Hm.
      + unfold same. cbn [f_nbc f_ccpty f_fcpty f_type f_value f_pos f_face]. split_and!; try done.
        * intros i Hi. apply K1d. lia.
        * intros i Hi. apply K2d. lia.
        * intros i Hi. apply K3d. lia.
      + cbn [f_ccpty]. intros ->. done. }
  destruct E1 as (okc & s1 & o1 & -> & HI1 & Hs1 & Hokc). cbn [mbind option_bind].
  set (second := if decide (nf ≤ f_fcpty s1) then _ else _).
  assert (E2 : ∃ okf s2 o2, second = Some (okf, s2, o2) ∧ fbc_inv s2 ∧ same s1 s2 ∧ f_ccpty s2 = f_ccpty s1 ∧ (okf = true → nf ≤ f_fcpty s2)).
  { subst second. destruct (decide (nf ≤ f_fcpty s1)) as [Hc|Hc].
    - exists true, s1, o1. by (split_and!; try done; unfold same; split_and!).
    - cbv zeta. pose proof (alloc_size_ge nf (f_fcpty s1)) as [Z1 Z2]. set (sz := alloc_size nf (f_fcpty s1)) in *.
      destruct HI1 as [ist isv isf [pl ipos] ilt ilv ilp ilf inn i0 (tot & Ht & Hle & Hm)].
      rewrite brealloc_spec by done. cbn [mbind option_bind]. destruct (next_alloc o1) as [b1 o2]. cbn [fst snd].
      cbv zeta. rewrite !got_if. eexists _, _, _. split; [done|]. destruct b1; cbn [keep].
      + split_and!.
        * constructor; cbn [f_nbc f_ccpty f_fcpty f_type f_value f_pos f_face contents]; try done; eauto.
          -- by rewrite realloc_arr_length.
          -- exists tot. split_and!; [done|lia|done].
        * unfold same. cbn [f_nbc f_ccpty f_fcpty f_type f_value f_pos f_face contents]. split_and!; try done.
          intros tot' Ht'. rewrite Ht in Ht'. injection Ht' as <-. apply realloc_agree; lia.
        * done.
        * done.
      + split_and!; try done.
        * constructor; cbn [f_nbc f_ccpty f_fcpty f_type f_value f_pos f_face contents]; try done; eauto. }
  destruct E2 as (okf & s2 & o2 & -> & HI2 & Hs2 & Hcc & Hokf). cbn [mbind option_bind].
  exists (okc && okf), s2, o2. split_and!; [done|done|by eapply same_trans|].
  intros [? ?]%andb_true_iff. rewrite Hcc. split; auto.
Qed.
Lemma append_ok ty faces v s o bcs : fbc_inv s → holds_bcs s bcs →
  ∃ ok s' o', fbc_append jt jv jn jz ty faces v s o = Some (ok, s', o') ∧ fbc_inv s' ∧
    holds_bcs s' (if ok : bool then bcs ++ [Bc ty v faces] else bcs).
Proof.
  intros HI HH. unfold fbc_append. cbv zeta. destruct (i_pos s HI) as (pl & Ep). destruct (i_tot s HI) as (tot & Ht & _).
  rewrite Ep in Ht. cbn [contents] in Ht. rewrite Ep. cbn [deref mbind option_bind]. rewrite Ht. cbn [mbind option_bind].
  destruct (expand_ok (f_nbc s + 1) (tot + length faces) s o HI) as (ok & s1 & o1 & E & HI1 & Hs & Hok).
  rewrite E. cbn [mbind option_bind]. pose proof (same_holds _ _ _ HI Hs HH) as HH1.
  destruct ok; [|by exists false, s1, o1]. destruct (Hok eq_refl) as [Hc Hf]. clear Hok.
  destruct Hs as (N & _ & _ & A3 & _). destruct HI1 as [ist isv isf [pl1 ipos] ilt ilv ilp ilf inn i0 (tot1 & Ht1 & Hle & Hm)].
  rewrite <- N in *. assert (tot1 = tot) as ->.
  { rewrite A3 in Ht1 by lia. rewrite Ep in Ht1. cbn [contents] in Ht1. congruence. }
  rewrite (deref_nonempty (f_pos s1) 0) by lia. cbn [mbind option_bind]. rewrite Ht1. cbn [mbind option_bind].
  destruct (putn_ok (f_face s1) tot faces isf ltac:(lia)) as (face & Ef & F1 & F2 & F3 & F4 & F5 & _). rewrite Ef. cbn [mbind option_bind].
  rewrite put1_ok by lia. cbn [mbind option_bind]. rewrite put1_ok by lia. cbn [mbind option_bind].
  rewrite put1_ok by lia. cbn [mbind option_bind].
  eexists true, _, o1. split; [done|]. split.
  - constructor; cbn [f_nbc f_ccpty f_fcpty f_type f_value f_pos f_face contents]; rewrite ?insert_length; try done; eauto; try lia.
    + rewrite list_lookup_insert_ne by lia. done.
    + exists (tot + length faces). rewrite list_lookup_insert by lia. split_and!; [done|lia|].
      intros i p Hi. destruct (decide (i = f_nbc s1 + 1)) as [->|Hne].
      * rewrite list_lookup_insert by lia. intros [= <-]. lia.
      * rewrite list_lookup_insert_ne by lia. intros Hp. apply Hm in Hp; lia.
  - destruct HH1 as (Hn & H0 & H). split_and!; cbn [f_nbc f_ccpty f_fcpty f_type f_value f_pos f_face contents].
    + rewrite app_length. simpl. lia.
    + rewrite list_lookup_insert_ne by lia. done.
    + intros i b Hb. apply lookup_app_Some in Hb as [Hb|[Hi Hb]].
      * pose proof (lookup_lt_Some _ _ _ Hb) as Hlti. destruct (H i b Hb) as (H1 & H2 & p & H3 & H4 & H5).
        rewrite !list_lookup_insert_ne by lia. split_and!; [done|done|]. exists p. rewrite ?list_lookup_insert_ne by lia.
        split_and!; [done|done|]. rewrite (slice_agree tot _ _ _ _ F3); [done|]. apply (Hm (S i)); [lia|done].
      * apply list_lookup_singleton_Some in Hb as [Hi0 <-]. assert (i = f_nbc s1) as -> by lia. cbn [bc_type bc_value bc_faces].
        rewrite !list_lookup_insert by lia. split_and!; [done|done|]. exists tot. rewrite list_lookup_insert_ne by lia.
        split_and!; [done| |done]. replace (S (f_nbc s1)) with (f_nbc s1 + 1) by lia. by rewrite list_lookup_insert by lia.
Qed.
Lemma clear_ok s : fbc_inv s → fbc_inv (fbc_clear s) ∧ holds_bcs (fbc_clear s) [].
Proof.
  intros [ist isv isf [pl ipos] ilt ilv ilp ilf inn i0 (tot & Ht & Hle & Hm)]. split.
  - constructor; cbn [fbc_clear f_nbc f_ccpty f_fcpty f_type f_value f_pos f_face]; try done; eauto; [lia|].
    exists 0. split_and!; [done|lia|]. intros i p Hi. assert (i = 0) as -> by lia. rewrite i0. intros [= <-]. lia.
  - split_and!; done.
Qed.
Lemma inv_destroy s : fbc_inv s → fbc_destroy s = Some tt.
Proof.
  intros [ist isv isf [pl ipos] _ _ _ _ _ _ _]. unfold fbc_destroy. rewrite ipos.
  destruct (f_type s), (f_value s), (f_face s); done.
Qed.
Lemma construct_ok n o : ∃ r o', fbc_construct jt jv jn jz n o = Some (r, o') ∧
  match r with None => True | Some s => fbc_inv s ∧ holds_bcs s [] ∧ n ≤ f_ccpty s ∧ n ≤ f_fcpty s end.
Proof.
  unfold fbc_construct. destruct (next_alloc o) as [[] o1]; [|by eexists None, _].
  destruct (next_alloc o1) as [[] o2]; cbn [mbind option_bind].
  2:{ by eexists None, _. }
  unfold expand_tables. cbn [f_nbc f_ccpty f_fcpty f_type f_value f_pos f_face]. cbv zeta.
  destruct (decide (n ≤ 0)) as [Hn|Hn].
  - cbn [mbind option_bind f_fcpty]. rewrite decide_True by done. cbn [mbind option_bind andb f_pos].
    unfold put1. cbn [deref mbind option_bind]. rewrite upd_Some by (simpl; lia). cbn [mbind option_bind].
    eexists (Some _), _. split; [done|]. split_and!; cbn; try lia; try done.
    constructor; cbn; try done; eauto. exists 0. split_and!; [done|lia|]. intros i p Hi. assert (i = 0) as -> by lia. intros [= <-]. lia.
  - pose proof (alloc_size_ge n 0) as [Z1 Z2]. set (sa := alloc_size n 0) in *.
    unfold brealloc. destruct (next_alloc o2) as [b1 o4]. cbn [mbind option_bind fst snd].
    destruct (next_alloc o4) as [b2 o5]. cbn [mbind option_bind fst snd]. destruct (next_alloc o5) as [b3 o6]. cbn [mbind option_bind fst snd].
    cbn [f_nbc f_ccpty f_fcpty f_type f_value f_pos f_face]. rewrite decide_False by done. fold sa.
    destruct (next_alloc o6) as [b4 o7]. cbn [mbind option_bind fst snd].
    destruct b1, b2, b3, b4; cbn [got keep andb mbind option_bind f_pos put1 deref fbc_destroy can_free f_face f_value f_type];
      try (by eexists None, _).
    unfold put1. cbn [deref mbind option_bind]. rewrite upd_Some by (rewrite realloc_arr_length; lia). cbn [mbind option_bind].
    eexists (Some _), _. split; [done|].
    assert (LP : length (<[0:=0]> (realloc_arr jn (sa + 1) [jn])) = sa + 1).
    { by rewrite insert_length, realloc_arr_length. }
    assert (L0 : <[0:=0]> (realloc_arr jn (sa + 1) [jn]) !! 0 = Some 0).
    { rewrite list_lookup_insert; [done|]. rewrite insert_length in LP. lia. }
    split_and!; cbn [f_ccpty f_fcpty]; try lia.
    + constructor; cbn [f_nbc f_ccpty f_fcpty f_type f_value f_pos f_face contents]; try done; rewrite ?replicate_length; try lia; eauto.
      exists 0. split_and!; [done|lia|]. intros i p Hi. assert (i = 0) as -> by lia. rewrite L0. intros [= <-]. lia.
    + split_and!; [done|exact L0|done].
Qed.
End flow.

(** ** Sources *)
Section sources.
Context {V : Type}.
Variables (jz : Z) (jv : V).
Notation tsrc := (@tsrc V).
(** [np] entries per term; all pointers NULL before the first expansion, live after. *)
Definition blk {A} (cpty w : nat) (b : buf A) : Prop :=
  if decide (cpty = 0) then b = Null else ∃ l, b = Live l ∧ length l = cpty * w.
Record ts_inv (s : tsrc) : Prop := {
  ti_np : 0 < s_np s; ti_n : s_nsrc s ≤ s_cpty s;
  ti_c : blk (s_cpty s) 1 (s_cell s); ti_p : blk (s_cpty s) 1 (s_press s); ti_f : blk (s_cpty s) 1 (s_flux s);
  ti_s : blk (s_cpty s) (s_np s) (s_sat s); ti_z : blk (s_cpty s) (s_np s) (s_surf s) }.
Lemma blk_sound {A} c w (b : buf A) : blk c w b → sound b.
Proof. unfold blk. destruct (decide _); [by intros ->|by intros (l & -> & _)]. Qed.
Lemma blk_length {A} c w (b : buf A) : blk c w b → length (contents b) = c * w.
Proof. unfold blk. destruct (decide _); [by intros ->; subst|by intros (l & -> & ?)]. Qed.
Lemma blk_live {A} c w (l : list A) : c ≠ 0 → length l = c * w → blk c w (Live l).
Proof. intros. unfold blk. rewrite decide_False by done. eauto. Qed.
Lemma blk_free {A} c w (b : buf A) : blk c w b → can_free b = true.
Proof. unfold blk. destruct (decide _); [by intros ->|by intros (l & -> & ?)]. Qed.
Lemma blk_stale {A} c w (b : buf A) (ok : bool) l :
  blk c w b → can_free (stale b (if ok then Some l else None)) = negb (ok && bool_decide (0 < c)).
Proof.
  unfold blk. destruct (decide (c = 0)) as [->|Hc].
  - intros ->. by destruct ok.
  - intros (l' & -> & _). rewrite bool_decide_true by lia. by destruct ok.
Qed.
(** Writing one more entry into a block. *)
Lemma blk_put1 {A} c (b : buf A) i x : blk c 1 b → i < c →
  ∃ b', put1 b i x = Some b' ∧ blk c 1 b' ∧ agree i (contents b) (contents b') ∧ contents b' !! i = Some x.
Proof.
  intros Hb Hi. pose proof (blk_length _ _ _ Hb) as Hl. rewrite put1_ok by lia. eexists. split; [done|]. cbn [contents]. split_and!.
  - apply blk_live; [lia|]. by rewrite insert_length.
  - intros k Hk. apply list_lookup_insert_ne. lia.
  - apply list_lookup_insert. lia.
Qed.
Lemma blk_putn {A} c w (b : buf A) i (xs : list A) : 0 < w → blk c w b → i < c → length xs = w →
  ∃ b', putn b (i * w) xs = Some b' ∧ blk c w b' ∧ agree (i * w) (contents b) (contents b') ∧ slice (contents b') (i * w) w = Some xs.
Proof.
  intros Hw Hb Hi Hx. pose proof (blk_length _ _ _ Hb) as Hl.
  destruct (putn_ok b (i * w) xs (blk_sound _ _ _ Hb) ltac:(rewrite Hl; nia)) as (b' & E & S1 & L1 & A1 & W1 & _).
  exists b'. split_and!; [done| |done|by rewrite Hx in W1].
  destruct b' as [|l|]; [|apply blk_live; [lia|simpl in L1; lia]|exfalso; by apply S1]. simpl in L1. exfalso. rewrite Hl in L1. nia.
Qed.
Lemma blk_realloc {A} (j : A) c c' w (b : buf A) : blk c w b → c ≤ c' → 0 < c' →
  blk c' w (Live (realloc_arr j (c' * w) (contents b))) ∧ agree (c * w) (contents b) (realloc_arr j (c' * w) (contents b)).
Proof.
  intros Hb Hc H0. split.
  - apply blk_live; [lia|]. apply realloc_arr_length.
  - apply realloc_agree; [nia|]. rewrite (blk_length _ _ _ Hb). lia.
Qed.
Definition ts_same (s s' : tsrc) : Prop :=
  s_nsrc s' = s_nsrc s ∧ s_np s' = s_np s ∧
  agree (s_nsrc s) (contents (s_cell s)) (contents (s_cell s')) ∧ agree (s_nsrc s) (contents (s_press s)) (contents (s_press s')) ∧
  agree (s_nsrc s) (contents (s_flux s)) (contents (s_flux s')) ∧
  agree (s_nsrc s * s_np s) (contents (s_sat s)) (contents (s_sat s')) ∧ agree (s_nsrc s * s_np s) (contents (s_surf s)) (contents (s_surf s')).
Lemma ts_same_holds s s' ts : ts_same s s' → holds_terms s ts → holds_terms s' ts.
Proof.
  intros (N & P & A1 & A2 & A3 & A4 & A5) (Hn & H). split; [congruence|]. intros i t Ht. pose proof (lookup_lt_Some _ _ _ Ht) as Hlti.
  destruct (H i t Ht) as (H1 & H2 & H3 & H4 & H5). rewrite P. rewrite A1, A2, A3 by lia. split_and!; try done.
  - rewrite (slice_agree _ _ _ _ _ A4); [done|nia].
  - rewrite (slice_agree _ _ _ _ _ A5); [done|nia].
Qed.
(** The five outcomes of an expansion. *)
Definition outs (n : nat) (o : list bool) : list bool := map (λ i, default true (o !! i)) (seq 0 n).
Definition ts_expand_ok_post (alloc : nat) (s : tsrc) (o : list bool) : Prop :=
  let ok := forallb id (outs 5 o) in
  ∃ st s', ts_expand jz jv alloc s o = Some (st, s', drop 5 o) ∧
    if ok then st = alloc ∧ ts_inv s' ∧ ts_same s s' ∧ s_cpty s' = alloc
    else st = 0 ∧ s_nsrc s' = s_nsrc s ∧ s_cpty s' = s_cpty s ∧ s_np s' = s_np s ∧
         (if decide (s_cpty s = 0 ∨ existsb id (outs 5 o) = false) then s' = s else ts_destroy s' = None).
Lemma next_alloc_outs (o : list bool) : next_alloc o = (default true (o !! 0), drop 1 o).
Proof. destruct o; done. Qed.
Lemma lookup_drop_def (o : list bool) k : default true (drop k o !! 0) = default true (o !! k).
Proof. by rewrite lookup_drop, Nat.add_0_r. Qed.
Lemma stale_same {A} c w (b : buf A) r : blk c w b → c = 0 ∨ r = None → stale b r = b.
Proof.
  intros Hb [->| ->]; [|done]. unfold blk in Hb. rewrite decide_True in Hb by done. subst. by destruct r.
Qed.
Lemma ts_expand_spec alloc s o : ts_inv s → s_cpty s ≤ alloc → 0 < alloc → ts_expand_ok_post alloc s o.
Proof.
  intros [np n c p f sa z] Hc H0. unfold ts_expand_ok_post, ts_expand.
  rewrite brealloc_spec by (by eapply blk_sound). rewrite next_alloc_outs. cbn [mbind option_bind fst snd].
  rewrite brealloc_spec by (by eapply blk_sound). rewrite next_alloc_outs, lookup_drop_def, drop_drop. cbn [mbind option_bind fst snd].
  rewrite brealloc_spec by (by eapply blk_sound). rewrite next_alloc_outs, lookup_drop_def, drop_drop. cbn [mbind option_bind fst snd].
  rewrite brealloc_spec by (by eapply blk_sound). rewrite next_alloc_outs, lookup_drop_def, drop_drop. cbn [mbind option_bind fst snd].
  rewrite brealloc_spec by (by eapply blk_sound). rewrite next_alloc_outs, lookup_drop_def, drop_drop. cbn [mbind option_bind fst snd].
  cbn [Nat.add]. change (outs 5 o) with [default true (o !! 0); default true (o !! 1); default true (o !! 2); default true (o !! 3); default true (o !! 4)].
  generalize (default true (o !! 0)) as b0, (default true (o !! 1)) as b1, (default true (o !! 2)) as b2, (default true (o !! 3)) as b3, (default true (o !! 4)) as b4.
  intros b0 b1 b2 b3 b4. cbn [forallb existsb id].
  destruct (b0 && (b1 && (b2 && (b3 && (b4 && true))))) eqn:Eok.
  - apply andb_true_iff in Eok as [-> Eok]. apply andb_true_iff in Eok as [-> Eok]. apply andb_true_iff in Eok as [-> Eok].
    apply andb_true_iff in Eok as [-> Eok]. apply andb_true_iff in Eok as [-> _].
    eexists _, _. split; [done|]. split; [done|].
    pose proof (blk_realloc jz _ alloc _ _ c Hc H0) as [C1 C2]. rewrite !Nat.mul_1_r in C1. rewrite !Nat.mul_1_r in C2.
    pose proof (blk_realloc jv _ alloc _ _ p Hc H0) as [P1 P2]. rewrite !Nat.mul_1_r in P1. rewrite !Nat.mul_1_r in P2.
    pose proof (blk_realloc jv _ alloc _ _ f Hc H0) as [F1 F2]. rewrite !Nat.mul_1_r in F1. rewrite !Nat.mul_1_r in F2.
    pose proof (blk_realloc jv _ alloc _ _ sa Hc H0) as [S1 S2].
    pose proof (blk_realloc jv _ alloc _ _ z Hc H0) as [Z1 Z2].
    split_and!; [constructor; cbn [s_nsrc s_cpty s_np s_cell s_press s_flux s_sat s_surf]; try done; lia| |done].
    unfold ts_same. cbn [s_nsrc s_cpty s_np s_cell s_press s_flux s_sat s_surf contents].
    split_and!; try done; intros i Hi; [apply C2|apply P2|apply F2|apply S2|apply Z2]; nia.
  - assert (F : ∀ (A0 : option (list Z)) (A1 A2 A3 A4 : option (list V)) (X : Z → option (nat * tsrc * list bool)), True) by done. clear F.
    match goal with |- ∃ st s', ?m = _ ∧ _ => assert (Em : m = Some (0, TSrc (s_nsrc s) (s_cpty s) (s_np s)
       (stale (s_cell s) (if b0 then Some (realloc_arr jz alloc (contents (s_cell s))) else None))
       (stale (s_press s) (if b1 then Some (realloc_arr jv alloc (contents (s_press s))) else None))
       (stale (s_flux s) (if b2 then Some (realloc_arr jv alloc (contents (s_flux s))) else None))
       (stale (s_sat s) (if b3 then Some (realloc_arr jv (alloc * s_np s) (contents (s_sat s))) else None))
       (stale (s_surf s) (if b4 then Some (realloc_arr jv (alloc * s_np s) (contents (s_surf s))) else None)), drop 5 o)) end.
    { destruct b0, b1, b2, b3, b4; done. }
    rewrite Em. eexists _, _. split; [done|]. split; [done|]. cbn [s_nsrc s_cpty s_np]. split_and!; try done.
    destruct (decide _) as [Hd|Hd].
    + assert (G : ∀ A (b : buf A) w ok l, blk (s_cpty s) w b → (ok = false ∨ s_cpty s = 0) → stale b (if ok : bool then Some l else None) = b).
      { intros A b w ok l Hb Hor. apply (stale_same (s_cpty s) w); [done|]. destruct Hor as [-> | ?]; auto. }
      destruct s as [n0 c0 np0 cell press flux sat surf]. cbn [s_nsrc s_cpty s_np s_cell s_press s_flux s_sat s_surf] in *.
      assert (Hor : s_cpty (TSrc n0 c0 np0 cell press flux sat surf) = 0 ∨ (b0 = false ∧ b1 = false ∧ b2 = false ∧ b3 = false ∧ b4 = false)).
      { destruct Hd as [Hd|Hd]; [by left|right]. by destruct b0, b1, b2, b3, b4. }
      cbn [s_cpty] in Hor.
      rewrite (G _ _ 1), (G _ _ 1), (G _ _ 1), (G _ _ np0), (G _ _ np0); try done; tauto.
    + unfold ts_destroy. cbn [s_nsrc s_cpty s_np s_cell s_press s_flux s_sat s_surf].
      rewrite (blk_stale _ _ _ b4 _ z), (blk_stale _ _ _ b3 _ sa), (blk_stale _ _ _ b2 _ f), (blk_stale _ _ _ b1 _ p), (blk_stale _ _ _ b0 _ c).
      rewrite bool_decide_true by lia. assert (existsb id [b0; b1; b2; b3; b4] = true) as Hex by (destruct (existsb _ _) eqn:E; [done|exfalso; apply Hd; by right]).
      destruct b0, b1, b2, b3, b4; done.
Qed.
Lemma ts_write c p v sat z sl zl s ts : ts_inv s → holds_terms s ts → s_nsrc s < s_cpty s →
  slice sat 0 (s_np s) = Some sl → slice z 0 (s_np s) = Some zl →
  let n := s_nsrc s in
  ∃ s', (cell ← put1 (s_cell s) n c; press ← put1 (s_press s) n p; flux ← put1 (s_flux s) n v;
    sat ← slice sat 0 (s_np s); sa ← putn (s_sat s) (n * s_np s) sat;
    z ← slice z 0 (s_np s); surf ← putn (s_surf s) (n * s_np s) z;
    Some (TSrc (n + 1) (s_cpty s) (s_np s) cell press flux sa surf)) = Some s' ∧
    ts_inv s' ∧ holds_terms s' (ts ++ [Term c p v sl zl]) ∧ s_np s' = s_np s ∧ s_cpty s' = s_cpty s.
Proof.
  intros [np n0 cc pp ff sa zz] (Hn & H) Hlt Hsl Hzl n. subst n.
  destruct (blk_put1 _ _ (s_nsrc s) c cc Hlt) as (b1 & -> & B1 & A1 & X1). cbn [mbind option_bind].
  destruct (blk_put1 _ _ (s_nsrc s) p pp Hlt) as (b2 & -> & B2 & A2 & X2). cbn [mbind option_bind].
  destruct (blk_put1 _ _ (s_nsrc s) v ff Hlt) as (b3 & -> & B3 & A3 & X3). cbn [mbind option_bind].
  rewrite Hsl. cbn [mbind option_bind].
  destruct (blk_putn _ _ _ (s_nsrc s) sl np sa Hlt (slice_length _ _ _ _ Hsl)) as (b4 & -> & B4 & A4 & X4). cbn [mbind option_bind].
  rewrite Hzl. cbn [mbind option_bind].
  destruct (blk_putn _ _ _ (s_nsrc s) zl np zz Hlt (slice_length _ _ _ _ Hzl)) as (b5 & -> & B5 & A5 & X5). cbn [mbind option_bind].
  eexists. split; [done|]. split_and!; [constructor; cbn [s_nsrc s_cpty s_np s_cell s_press s_flux s_sat s_surf]; try done; lia| |done|done].
  split; cbn [s_nsrc s_cpty s_np s_cell s_press s_flux s_sat s_surf]; [rewrite app_length; simpl; lia|].
  intros i t Ht. apply lookup_app_Some in Ht as [Ht|[Hi Ht]].
  - pose proof (lookup_lt_Some _ _ _ Ht) as Hlti. destruct (H i t Ht) as (H1 & H2 & H3 & H4 & H5). rewrite A1, A2, A3 by lia.
    split_and!; try done.
    + rewrite (slice_agree _ _ _ _ _ A4); [done|nia].
    + rewrite (slice_agree _ _ _ _ _ A5); [done|nia].
  - apply list_lookup_singleton_Some in Ht as [Hi0 <-]. assert (i = s_nsrc s) as -> by lia. done.
Qed.
End sources.

(** Compressible sources: the same with three columns. *)
Section csources.
Context {V : Type}.
Variables (jz : Z) (jv : V).
Notation csrc := (@csrc V).
Record cs_inv (s : csrc) : Prop := {
  ci_np : 0 < q_np s; ci_n : q_nsrc s ≤ q_cpty s;
  ci_c : blk (q_cpty s) 1 (q_cell s); ci_f : blk (q_cpty s) 1 (q_flux s); ci_s : blk (q_cpty s) (q_np s) (q_sat s) }.
Definition cs_same (s s' : csrc) : Prop :=
  q_nsrc s' = q_nsrc s ∧ q_np s' = q_np s ∧
  agree (q_nsrc s) (contents (q_cell s)) (contents (q_cell s')) ∧ agree (q_nsrc s) (contents (q_flux s)) (contents (q_flux s')) ∧
  agree (q_nsrc s * q_np s) (contents (q_sat s)) (contents (q_sat s')).
Lemma cs_same_holds s s' ts : cs_same s s' → holds_cterms s ts → holds_cterms s' ts.
Proof.
  intros (N & P & A1 & A3 & A4) (Hn & H). split; [congruence|]. intros i t Ht. pose proof (lookup_lt_Some _ _ _ Ht) as Hlti.
  destruct (H i t Ht) as (H1 & H3 & H4). rewrite P. rewrite A1, A3 by lia. split_and!; try done.
  rewrite (slice_agree _ _ _ _ _ A4); [done|nia].
Qed.
Lemma cs_expand_spec alloc s o : cs_inv s → q_cpty s ≤ alloc → 0 < alloc →
  ∃ st s', cs_expand jz jv alloc s o = Some (st, s', drop 3 o) ∧
    if forallb id (outs 3 o) then st = alloc ∧ cs_inv s' ∧ cs_same s s' ∧ q_cpty s' = alloc
    else st = 0 ∧ q_nsrc s' = q_nsrc s ∧ q_cpty s' = q_cpty s ∧ q_np s' = q_np s ∧
         (if decide (q_cpty s = 0 ∨ existsb id (outs 3 o) = false) then s' = s else cs_destroy s' = None).
Proof.
  intros [np n c f sa] Hc H0. unfold cs_expand.
  rewrite brealloc_spec by (by eapply blk_sound). rewrite next_alloc_outs. cbn [mbind option_bind fst snd].
  rewrite brealloc_spec by (by eapply blk_sound). rewrite next_alloc_outs, lookup_drop_def, drop_drop. cbn [mbind option_bind fst snd].
  rewrite brealloc_spec by (by eapply blk_sound). rewrite next_alloc_outs, lookup_drop_def, drop_drop. cbn [mbind option_bind fst snd].
  cbn [Nat.add]. change (outs 3 o) with [default true (o !! 0); default true (o !! 1); default true (o !! 2)].
  generalize (default true (o !! 0)) as b0, (default true (o !! 1)) as b1, (default true (o !! 2)) as b2.
  intros b0 b1 b2. cbn [forallb existsb id].
  destruct (b0 && (b1 && (b2 && true))) eqn:Eok.
  - apply andb_true_iff in Eok as [-> Eok]. apply andb_true_iff in Eok as [-> Eok]. apply andb_true_iff in Eok as [-> _].
    eexists _, _. split; [done|]. split; [done|].
    pose proof (blk_realloc jz _ alloc _ _ c Hc H0) as [C1 C2]. rewrite !Nat.mul_1_r in C1. rewrite !Nat.mul_1_r in C2.
    pose proof (blk_realloc jv _ alloc _ _ f Hc H0) as [F1 F2]. rewrite !Nat.mul_1_r in F1. rewrite !Nat.mul_1_r in F2.
    pose proof (blk_realloc jv _ alloc _ _ sa Hc H0) as [S1 S2].
    split_and!; [constructor; cbn [q_nsrc q_cpty q_np q_cell q_flux q_sat]; try done; lia| |done].
    unfold cs_same. cbn [q_nsrc q_cpty q_np q_cell q_flux q_sat contents].
    split_and!; try done; intros i Hi; [apply C2|apply F2|apply S2]; nia.
  - match goal with |- ∃ st s', ?m = _ ∧ _ => assert (Em : m = Some (0, CSrc (q_nsrc s) (q_cpty s) (q_np s)
       (stale (q_cell s) (if b0 then Some (realloc_arr jz alloc (contents (q_cell s))) else None))
       (stale (q_flux s) (if b1 then Some (realloc_arr jv alloc (contents (q_flux s))) else None))
       (stale (q_sat s) (if b2 then Some (realloc_arr jv (alloc * q_np s) (contents (q_sat s))) else None)), drop 3 o)) end.
    { destruct b0, b1, b2; done. }
    rewrite Em. eexists _, _. split; [done|]. split; [done|]. cbn [q_nsrc q_cpty q_np]. split_and!; try done.
    destruct (decide _) as [Hd|Hd].
    + assert (G : ∀ A (b : buf A) w ok l, blk (q_cpty s) w b → (ok = false ∨ q_cpty s = 0) → stale b (if ok : bool then Some l else None) = b).
      { intros A b w ok l Hb Hor. apply (stale_same (q_cpty s) w); [done|]. destruct Hor as [-> | ?]; auto. }
      destruct s as [n0 c0 np0 cell flux sat]. cbn [q_nsrc q_cpty q_np q_cell q_flux q_sat] in *.
      assert (Hor : c0 = 0 ∨ (b0 = false ∧ b1 = false ∧ b2 = false)).
      { destruct Hd as [Hd|Hd]; [by left|right]. by destruct b0, b1, b2. }
      rewrite (G _ _ 1), (G _ _ 1), (G _ _ np0); try done; tauto.
    + unfold cs_destroy. cbn [q_nsrc q_cpty q_np q_cell q_flux q_sat].
      rewrite (blk_stale _ _ _ b2 _ sa), (blk_stale _ _ _ b1 _ f), (blk_stale _ _ _ b0 _ c).
      rewrite bool_decide_true by lia. assert (existsb id [b0; b1; b2] = true) as Hex by (destruct (existsb _ _) eqn:E; [done|exfalso; apply Hd; by right]).
      destruct b0, b1, b2; done.
Qed.
Lemma cs_write c v sat sl s ts : cs_inv s → holds_cterms s ts → q_nsrc s < q_cpty s →
  slice sat 0 (q_np s) = Some sl →
  let n := q_nsrc s in
  ∃ s', (cell ← put1 (q_cell s) n c; flux ← put1 (q_flux s) n v;
    sat ← slice sat 0 (q_np s); sa ← putn (q_sat s) (n * q_np s) sat;
    Some (CSrc (n + 1) (q_cpty s) (q_np s) cell flux sa)) = Some s' ∧
    cs_inv s' ∧ holds_cterms s' (ts ++ [CTerm c v sl]) ∧ q_np s' = q_np s ∧ q_cpty s' = q_cpty s.
Proof.
  intros [np n0 cc ff sa] (Hn & H) Hlt Hsl n. subst n.
  destruct (blk_put1 _ _ (q_nsrc s) c cc Hlt) as (b1 & -> & B1 & A1 & X1). cbn [mbind option_bind].
  destruct (blk_put1 _ _ (q_nsrc s) v ff Hlt) as (b3 & -> & B3 & A3 & X3). cbn [mbind option_bind].
  rewrite Hsl. cbn [mbind option_bind].
  destruct (blk_putn _ _ _ (q_nsrc s) sl np sa Hlt (slice_length _ _ _ _ Hsl)) as (b4 & -> & B4 & A4 & X4). cbn [mbind option_bind].
  eexists. split; [done|]. split_and!; [constructor; cbn [q_nsrc q_cpty q_np q_cell q_flux q_sat]; try done; lia| |done|done].
  split; cbn [q_nsrc q_cpty q_np q_cell q_flux q_sat]; [rewrite app_length; simpl; lia|].
  intros i t Ht. apply lookup_app_Some in Ht as [Ht|[Hi Ht]].
  - pose proof (lookup_lt_Some _ _ _ Ht) as Hlti. destruct (H i t Ht) as (H1 & H3 & H4). rewrite A1, A3 by lia.
    split_and!; try done. rewrite (slice_agree _ _ _ _ _ A4); [done|nia].
  - apply list_lookup_singleton_Some in Ht as [Hi0 <-]. assert (i = q_nsrc s) as -> by lia. done.
Qed.
End csources.
