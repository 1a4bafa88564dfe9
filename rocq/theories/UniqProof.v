(** Thinning a sorted list and assigning numbers to a column. *)
From Verif Require Import Base LoopModel LoopProof UniqModel UniqSpec.
Unset Default Proof Using.

Section proof.
Context {V : Type} (lt : V → V → Prop) `{!RelDecision lt} (shift : V → V).
Hypothesis laws : depth_laws lt shift.
Notation le x y := (¬ lt y x).
Notation sorted := (StronglySorted (λ x y, ¬ lt y x)).

Lemma le_refl x : le x x.
Proof. intros H. by apply (dl_asym _ _ laws x x). Qed.
Lemma le_trans x y z : le x y → le y z → le x z.
Proof. intros H1 H2 H. by destruct (dl_cotrans _ _ laws z y x H). Qed.
Lemma lt_le_trans x y z : lt x y → le y z → lt x z.
Proof. intros H1 H2. by destruct (dl_cotrans _ _ laws x z y H1). Qed.
Lemma le_lt_trans x y z : le x y → lt y z → lt x z.
Proof. intros H1 H2. by destruct (dl_cotrans _ _ laws y x z H2). Qed.
Lemma lt_le x y : lt x y → le x y.
Proof. intros H. by apply (dl_asym _ _ laws). Qed.
Lemma shift_le x y : le x y → le (shift x) (shift y).
Proof. intros H H2. by apply H, (dl_mono _ _ laws). Qed.

(** ** Thinning *)
Fixpoint kept (v : V) (l : list V) : list V :=
  match l with [] => [] | x :: l => if decide (lt (shift v) x) then x :: kept x l else kept v l end.
Definition thin (l : list V) : list V :=
  match l with [] => [] | v :: l => take (length (kept v l)) (v :: kept v l) ++ [default v (last (v :: l))] end.

Lemma uniq_loop_ok m : ∀ i pos val don mid rest, length don = pos → length (don ++ mid) = i → length rest = m →
  ∃ mid', uniq_loop lt shift m i pos val (don ++ mid ++ rest) = Some (pos + length (kept val rest), don ++ kept val rest ++ mid') ∧
    length mid' + length (kept val rest) = length mid + m ∧ last (don ++ kept val rest ++ mid') = last (don ++ mid ++ rest).
Proof.
  induction m as [|m IH]; intros i pos val don mid rest Hd Hm Hr; cbn [uniq_loop].
  - destruct rest; [|done]. exists mid. cbn. rewrite app_nil_r, Nat.add_0_r. split; [done|]. split; [lia|done].
  - destruct rest as [|x rest]; [done|]. cbn [length] in Hr. injection Hr as Hr. rewrite app_length in Hm.
    rewrite lookup_app_r by lia. rewrite lookup_app_r by lia. replace (i - length don - length mid) with 0 by lia. cbn [lookup list_lookup mbind option_bind kept].
    destruct (decide (lt (shift val) x)) as [Hx|Hx].
    + rewrite upd_Some by (rewrite !app_length; cbn; lia). cbn [mbind option_bind].
      rewrite insert_app_r_alt by lia. rewrite Hd, Nat.sub_diag. destruct mid as [|y mid].
      * cbn [app]. change (<[0:=x]> (x :: rest)) with ([x] ++ rest). rewrite app_assoc.
        destruct (IH (S i) (S pos) x (don ++ [x]) [] rest) as (mid' & E & Hl & Hc); [rewrite app_length; cbn; lia|rewrite !app_length; cbn in *; lia|done|].
        cbn [app] in E, Hc. exists mid'. rewrite E. rewrite <- !app_assoc in *. cbn [app] in *. split; [f_equal; f_equal; cbn; lia|]. split; [cbn in *; lia|done].
      * cbn [app]. change (<[0:=x]> (y :: mid ++ x :: rest)) with ([x] ++ (mid ++ x :: rest)). rewrite app_assoc. replace (mid ++ x :: rest) with ((mid ++ [x]) ++ rest) by (by rewrite <- app_assoc).
        destruct (IH (S i) (S pos) x (don ++ [x]) (mid ++ [x]) rest) as (mid' & E & Hl & Hc); [rewrite app_length; cbn; lia|rewrite !app_length; cbn in *; lia|done|].
        exists mid'. rewrite E. rewrite <- !app_assoc in *. cbn [app] in *. split; [f_equal; f_equal; cbn; lia|]. split; [rewrite app_length in Hl; cbn in *; lia|]. rewrite Hc.
        change (don ++ x :: mid ++ x :: rest) with (don ++ (x :: mid) ++ x :: rest). change (don ++ y :: mid ++ x :: rest) with (don ++ (y :: mid) ++ x :: rest). rewrite !(app_assoc don). by rewrite !last_app_cons.
    + replace (mid ++ x :: rest) with ((mid ++ [x]) ++ rest) by (by rewrite <- app_assoc).
      destruct (IH (S i) pos val don (mid ++ [x]) rest) as (mid' & E & Hl & Hc); [done|rewrite !app_length; cbn; lia|done|].
      exists mid'. rewrite E. split; [done|]. split; [rewrite app_length in Hl; cbn in *; lia|done].
Qed.
Lemma uniquify_ok (l : list V) : ∃ r, uniquify lt shift (length l) l = Some (length (thin l), thin l ++ r) ∧ length (thin l ++ r) = length l.
Proof.
  unfold uniquify. destruct l as [|v l]; [by exists []|]. rewrite decide_False by (cbn; lia). cbn [lookup list_lookup mbind option_bind].
  destruct (uniq_loop_ok (length l) 1 1 v [v] [] l) as (r & E & Hl & Hc); [done..|]. cbn [app] in E, Hc. replace (length (v :: l) - 1) with (length l) by (cbn; lia). rewrite E. cbn [mbind option_bind].
  assert (Hlen : length (v :: kept v l ++ r) = S (length l)) by (cbn in *; rewrite app_length; lia).
  assert (Hlast : (v :: kept v l ++ r) !! length l = Some (default v (last (v :: l)))).
  { rewrite last_lookup in Hc. rewrite Hlen in Hc. cbn [pred] in Hc. rewrite Hc. destruct (last (v :: l)) eqn:El; [done|]. by apply last_None in El. }
  rewrite Hlast. cbn [mbind option_bind]. rewrite upd_Some by (cbn in *; lia). cbn [mbind option_bind].
  set (d := default v (last (v :: l))) in *. replace (1 + length (kept v l) - 1) with (length (kept v l)) by lia.
  assert (El : <[length (kept v l):=d]> (v :: kept v l ++ r) = thin (v :: l) ++ r).
  { unfold thin. fold d. change (v :: kept v l ++ r) with ((v :: kept v l) ++ r). rewrite insert_app_l by (cbn; lia). f_equal.
    assert (G : ∀ (a : V) k, <[length k := d]> (a :: k) = take (length k) (a :: k) ++ [d]).
    { clear. intros a k. revert a. induction k as [|b k IH]; intros a; [done|]. cbn [length]. change (<[S (length k):=d]> (a :: b :: k)) with (a :: <[length k := d]> (b :: k)). by rewrite IH. }
    apply G. }
  rewrite El. exists r. assert (Ht : length (thin (v :: l)) = S (length (kept v l))) by (unfold thin; rewrite app_length, take_length; cbn; lia).
  split; [f_equal; f_equal; lia|]. rewrite app_length, Ht. cbn in Hlen |- *. rewrite app_length in Hlen. lia.
Qed.

(** What thinning does. *)
Lemma kept_in v l x : x ∈ kept v l → x ∈ l.
Proof. revert v. induction l as [|y l IH]; intros v; [done|]. cbn. destruct (decide _); rewrite !elem_of_cons; naive_solver. Qed.
Lemma kept_gap v l n x y : (v :: kept v l) !! n = Some x → (v :: kept v l) !! S n = Some y → lt (shift x) y.
Proof.
  revert v n. induction l as [|z l IH]; intros v n H1 H2; [done|]. cbn [kept] in *. destruct (decide (lt (shift v) z)) as [Hz|]; [|by eapply IH].
  destruct n as [|n]; [cbn in *; congruence|]. by apply (IH z n).
Qed.
(** Each value of the list is near a kept one. *)
Lemma kept_near v l z : sorted (v :: l) → z ∈ v :: l → ∃ m y, (v :: kept v l) !! m = Some y ∧ le y z ∧ le z (shift y) ∧ ∀ m' y', m' < m → (v :: kept v l) !! m' = Some y' → lt (shift y') z.
Proof.
  revert v z. induction l as [|x l IH]; intros v z Hs Hz.
  - apply elem_of_list_singleton in Hz as ->. exists 0, v. split; [done|]. split; [apply le_refl|]. split; [apply (dl_shift _ _ laws)|lia].
  - apply elem_of_cons in Hz as [->|Hz]; [exists 0, v; split; [done|]; split; [apply le_refl|]; split; [apply (dl_shift _ _ laws)|lia]|].
    inversion Hs as [|?? Hs' Hf]; subst. cbn [kept]. destruct (decide (lt (shift v) x)) as [Hx|Hx].
    + destruct (IH x z Hs' Hz) as (m & y & E & H1 & H2 & H3). exists (S m), y. split; [done|]. split; [done|]. split; [done|].
      intros [|m'] y' Hm E'; [|apply (H3 m'); [lia|done]]. injection E' as <-. eapply lt_le_trans; [exact Hx|].
      apply elem_of_cons in Hz as [->|Hz]; [apply le_refl|]. inversion Hs' as [|?? _ Hf']; subst. rewrite Forall_forall in Hf'. by apply Hf'.
    + apply elem_of_cons in Hz as [->|Hz].
      * exists 0, v. split; [done|]. inversion Hf; subst. split; [done|]. split; [done|lia].
      * apply IH; [|by right]. inversion Hs'; subst. inversion Hf; subst. by constructor.
Qed.

Lemma sorted_last v l : sorted (v :: l) → ∀ z, z ∈ v :: l → le z (default v (last (v :: l))).
Proof.
  revert v. induction l as [|x l IH]; intros v Hs z Hz.
  - apply elem_of_list_singleton in Hz as ->. apply le_refl.
  - inversion Hs as [|?? Hs' Hf]; subst. change (last (v :: x :: l)) with (last (x :: l)). assert (E : default v (last (x :: l)) = default x (last (x :: l))). { destruct (last (x :: l)) eqn:E; [done|]. by apply last_None in E. }
    rewrite E. apply elem_of_cons in Hz as [->|Hz]; [|by apply IH]. inversion Hf; subst. eapply le_trans; [exact H1|]. apply IH; [done|left].
Qed.

Section thinned.
Variables (v : V) (l : list V).
Hypothesis Hs : sorted (v :: l).
Let d := default v (last (v :: l)).
Lemma thin_lookup n : thin (v :: l) !! n = if decide (n < length (kept v l)) then (v :: kept v l) !! n else if decide (n = length (kept v l)) then Some d else None.
Proof.
  unfold thin. fold d. assert (length (take (length (kept v l)) (v :: kept v l)) = length (kept v l)) by (rewrite take_length; cbn; lia). destruct (decide (n < length (kept v l))).
  - rewrite lookup_app_l by lia. by rewrite lookup_take by lia.
  - rewrite lookup_app_r by lia. rewrite H. destruct (decide (n = length (kept v l))) as [->|]; [by rewrite Nat.sub_diag|]. destruct (n - length (kept v l)) as [|m] eqn:E; [lia|done].
Qed.
Lemma thin_length : length (thin (v :: l)) = S (length (kept v l)).
Proof. unfold thin. rewrite app_length, take_length. cbn. lia. Qed.
Lemma d_in : d ∈ v :: l.
Proof. unfold d. destruct (last (v :: l)) as [x|] eqn:E; [|by apply last_None in E]. cbn. apply last_Some_elem_of in E. done. Qed.
Lemma thin_in x : x ∈ thin (v :: l) → x ∈ v :: l.
Proof.
  unfold thin. fold d. rewrite elem_of_app, elem_of_list_singleton. intros [H| ->]; [|apply d_in].
  assert (x ∈ v :: kept v l) as Hx by (eapply elem_of_submseteq; [exact H|]; apply sublist_submseteq, sublist_take). apply elem_of_cons in Hx as [->|Hx]; [left|right; by eapply kept_in].
Qed.
(** The kept value that the last one replaces. *)
Lemma kept_last_le y : (v :: kept v l) !! length (kept v l) = Some y → le y d.
Proof.
  intros E. apply sorted_last; [done|]. apply elem_of_list_lookup_2 in E. apply elem_of_cons in E as [->|E]; [left|right; by eapply kept_in].
Qed.
Lemma thin_gap n x y : thin (v :: l) !! n = Some x → thin (v :: l) !! S n = Some y → lt (shift x) y.
Proof.
  rewrite !thin_lookup. intros H1 H2. destruct (decide (S n < length (kept v l))); [rewrite decide_True in H1 by lia; by eapply kept_gap|].
  destruct (decide (S n = length (kept v l))) as [Hn|]; [|done]. injection H2 as <-. rewrite decide_True in H1 by lia.
  destruct (lookup_lt_is_Some_2 (v :: kept v l) (S n)) as [y Hy]; [cbn; lia|]. eapply lt_le_trans; [by eapply kept_gap|]. apply kept_last_le. by rewrite <- Hn.
Qed.
Lemma thin_last : last (thin (v :: l)) = Some d.
Proof. unfold thin. fold d. apply last_snoc. Qed.
Lemma thin_near z : z ∈ v :: l → ∃ m, belongs lt shift (thin (v :: l)) m z.
Proof.
  intros Hz. destruct (kept_near v l z Hs Hz) as (m & y & E & H1 & H2 & H3). exists m.
  assert (Hm : m ≤ length (kept v l)) by (apply lookup_lt_Some in E; cbn in E; lia). split.
  - destruct (decide (m = length (kept v l))) as [->|Hne].
    + exists d. rewrite thin_lookup. rewrite decide_False by lia. rewrite decide_True by done. split; [done|]. split.
      * eapply le_trans; [by apply sorted_last|]. apply (dl_shift _ _ laws).
      * destruct (kept_near v l d Hs d_in) as (m' & y' & E' & K1 & K2 & K3). assert (m' = length (kept v l)) as ->.
        { assert (m' ≤ length (kept v l)) by (apply lookup_lt_Some in E'; cbn in E'; lia). destruct (decide (m' = length (kept v l))); [done|]. exfalso.
          apply K2. apply (lt_le_trans _ z); [apply (H3 m'); [lia|done]|]. by apply sorted_last. }
        rewrite E in E'. injection E' as <-. eapply le_trans; [exact K2|]. by apply shift_le.
    + exists y. rewrite thin_lookup. rewrite decide_True by lia. split; [done|]. split; [done|]. eapply le_trans; [exact H1|]. apply (dl_shift _ _ laws).
  - intros m' y' Hm' E'. rewrite thin_lookup in E'. rewrite decide_True in E' by lia. by apply (H3 m').
Qed.
End thinned.

Lemma gap_lt (L : list V) : (∀ n x y, L !! n = Some x → L !! S n = Some y → lt (shift x) y) → ∀ m n x y, m < n → L !! m = Some x → L !! n = Some y → lt x y.
Proof.
  intros Hg m n. induction n as [|n IH]; intros x y Hmn Hx Hy; [lia|]. destruct (lookup_lt_is_Some_2 L n) as [w Hw]; [apply lookup_lt_Some in Hy; lia|].
  assert (lt w y) as Hwy. { eapply le_lt_trans; [apply (dl_shift _ _ laws)|]. by eapply Hg. }
  destruct (decide (m = n)) as [->|]; [rewrite Hx in Hw; by injection Hw as ->|]. eapply lt_le_trans; [apply (IH x w); [lia|done|done]|]. by apply lt_le.
Qed.
Lemma gap_NoDup (L : list V) : (∀ n x y, L !! n = Some x → L !! S n = Some y → lt (shift x) y) → NoDup L.
Proof.
  intros Hg. apply NoDup_alt. intros i j x Hi Hj. destruct (Nat.lt_trichotomy i j) as [H|[H|H]]; [|done|].
  - pose proof (gap_lt L Hg i j x x H Hi Hj) as E. by apply le_refl in E.
  - pose proof (gap_lt L Hg j i x x H Hj Hi) as E. by apply le_refl in E.
Qed.
Lemma belongs_unique L m n z : belongs lt shift L m z → belongs lt shift L n z → m = n.
Proof.
  intros [(x & Hx & Hxz & _) Hm] [(y & Hy & Hyz & _) Hn]. destruct (Nat.lt_trichotomy m n) as [H|[H|H]]; [|done|].
  - by destruct (Hxz (Hn m x H Hx)).
  - by destruct (Hyz (Hm n y H Hy)).
Qed.
Lemma belongs_mono L m n z z' : belongs lt shift L m z → belongs lt shift L n z' → le z z' → m ≤ n.
Proof.
  intros [(x & Hx & Hxz & _) Hm] [(y & Hy & Hyz & _) Hn] Hz. destruct (decide (m ≤ n)); [done|]. exfalso. apply Hyz. eapply lt_le_trans; [apply (Hm n y); [lia|done]|done].
Qed.

(** ** Numbers of a column *)
Section column.
Variables (pre L post zcorn : list V) (actnum : list Z) (zix cix : nat).
Hypothesis Hgap : ∀ n x y, L !! n = Some x → L !! S n = Some y → lt (shift x) y.
Let zlist := pre ++ L ++ post.
Let b := length pre.
Let stop := b + length L.
Definition act (i : nat) : Prop := ∃ a, actnum !! (cix + i / 2) = Some a ∧ a ≠ 0%Z.

Lemma zlist_at c : c < length L → zlist !! (b + c) = L !! c.
Proof. intros H. unfold zlist, b. rewrite lookup_app_r by lia. replace (length pre + c - length pre) with c by lia. by apply lookup_app_l. Qed.
Lemma advance_ok r z : belongs lt shift L r z → ∀ fuel c, c < length L → fuel + c = length L → advance lt shift fuel (b + c) stop zlist z = Some (b + Nat.max c r).
Proof.
  intros [(y & Hy & Hyz & _) Hr]. pose proof (lookup_lt_Some _ _ _ Hy) as Hrl. induction fuel as [|fuel IH]; intros c Hc Hf; [lia|]. cbn [advance].
  rewrite decide_True by (unfold stop; lia). rewrite zlist_at by done.
  destruct (lookup_lt_is_Some_2 L c Hc) as [w Hw]. rewrite Hw. cbn [mbind option_bind]. destruct (decide (lt (shift w) z)) as [Hl|Hl].
  - assert (c < r). { destruct (decide (c < r)); [done|]. exfalso. apply Hyz. eapply le_lt_trans; [|exact Hl]. apply shift_le. destruct (decide (c = r)) as [->|]; [rewrite Hw in Hy; injection Hy as ->; apply le_refl|].
      apply lt_le. eapply (gap_lt L Hgap r c); [lia|done|done]. }
    replace (S (b + c)) with (b + S c) by lia. rewrite IH by lia. f_equal. lia.
  - assert (r ≤ c). { destruct (decide (r ≤ c)); [done|]. exfalso. apply Hl. apply (Hr c w); [lia|done]. } f_equal. lia.
Qed.

Lemma assign_ok m : ∀ i c prev don rest, (∀ t, i ≤ t → t < i + m → (∃ a, actnum !! (cix + t / 2) = Some a) ∧ ∃ z, zcorn !! (zix + t) = Some z ∧ (act t → ∃ r, belongs lt shift L r z)) →
  last don = Some prev → m < length rest → (c < length L ∨ c = 0) →
  ∃ ns, assign_loop lt shift m i (b + c) stop zlist zcorn zix actnum cix (length don) (don ++ rest) = Some (true, don ++ ns ++ [int_max] ++ drop (m + 1) rest) ∧ length ns = m ∧
    ∀ t, t < m → (act (i + t) → ∃ n, ns !! t = Some (Z.of_nat (b + n)) ∧ c ≤ n ∧ (n = c ∨ ∃ t' z, t' ≤ t ∧ act (i + t') ∧ zcorn !! (zix + (i + t')) = Some z ∧ belongs lt shift L n z) ∧
        ∀ t' z r, t' ≤ t → act (i + t') → zcorn !! (zix + (i + t')) = Some z → belongs lt shift L r z → r ≤ n) ∧
      (¬ act (i + t) → ns !! t = (prev :: ns) !! t).
Proof.
  induction m as [|m IH]; intros i c prev don rest Hin Hlast Hl Hc; cbn [assign_loop].
  - rewrite upd_Some by (rewrite app_length; lia). cbn [mbind option_bind]. exists []. split; [|split; [done|lia]]. f_equal. f_equal. rewrite insert_app_r_alt by lia. rewrite Nat.sub_diag. f_equal.
    destruct rest; [cbn in Hl; lia|]. done.
  - destruct (Hin i) as ((a & Ea) & z & Ez & Hz); [lia..|]. rewrite Ea. cbn [mbind option_bind]. destruct rest as [|x0 rest]; [cbn in Hl; lia|]. cbn [length] in Hl.
    assert (Hd : 0 < length don) by (destruct don; [done|cbn; lia]).
    assert (Hins : ∀ w, <[length don := w]> (don ++ x0 :: rest) = (don ++ [w]) ++ rest). { intros w. rewrite insert_app_r_alt by lia. rewrite Nat.sub_diag. cbn. by rewrite <- app_assoc. }
    destruct (decide (a = 0)%Z) as [Ha|Ha].
    + assert (Hna : ¬ act i) by (intros (a' & Ea' & Ha'); rewrite Ea in Ea'; congruence).
      rewrite decide_False by lia. rewrite lookup_app_l by lia. rewrite last_lookup in Hlast. replace (length don - 1) with (pred (length don)) by lia. rewrite Hlast. cbn [mbind option_bind].
      rewrite upd_Some by (rewrite app_length; cbn; lia). cbn [mbind option_bind]. rewrite Hins. replace (S (length don)) with (length (don ++ [prev])) by (rewrite app_length; cbn; lia).
      destruct (IH (S i) c prev (don ++ [prev]) rest) as (ns & E & Hlen & Hns); [intros t ??; apply Hin; lia|apply last_snoc|lia|done|]. rewrite E. exists (prev :: ns). split; [f_equal; f_equal; rewrite <- app_assoc; done|].
      split; [cbn; lia|]. intros [|t] Ht; [split; [rewrite Nat.add_0_r; done|done]|]. destruct (Hns t) as [H1 H2]; [lia|]. replace (i + S t) with (S i + t) by lia. split.
      * intros Hact. destruct (H1 Hact) as (n & En & Hcn & Hor & Hall). exists n. split; [done|]. split; [done|]. split.
        -- destruct Hor as [?|(t' & z' & ? & Hact' & Ez' & ?)]; [by left|]. right. exists (S t'), z'. split; [lia|]. replace (i + S t') with (S i + t') by lia. done.
        -- intros [|t'] z' r Ht' Hact' Ez' Hb; [by rewrite Nat.add_0_r in Hact'|]. apply (Hall t' z'); [lia| | |done]; by replace (S i + t') with (i + S t') by lia.
      * intros Hact. exact (H2 Hact).
    + assert (Hact : act i) by (by exists a). destruct (Hz Hact) as [r Hr]. rewrite Ez. cbn [mbind option_bind].
      assert (Hrl : r < length L) by (destruct Hr as [(y & Hy & _) _]; by eapply lookup_lt_Some). assert (Hcl : c < length L) by lia.
      replace (stop - (b + c)) with (length L - c) by (unfold stop; lia). rewrite (advance_ok r z Hr) by lia. cbn [mbind option_bind]. set (c' := Nat.max c r).
      rewrite decide_False by (unfold stop; lia). rewrite zlist_at by (unfold c'; lia).
      destruct (lookup_lt_is_Some_2 L c') as [w Hw]; [unfold c'; lia|]. rewrite Hw. cbn [mbind option_bind].
      rewrite bool_decide_false.
      2: { destruct Hr as [(y & Hy & Hyz & _) _]. intros Hlt. apply Hyz. eapply le_lt_trans; [|exact Hlt]. apply shift_le. destruct (decide (c' = r)) as [E|]; [rewrite E, Hy in Hw; injection Hw as ->; apply le_refl|].
           apply lt_le. eapply (gap_lt L Hgap r c'); [unfold c' in *; lia|done|done]. }
      rewrite upd_Some by (rewrite app_length; cbn; lia). cbn [mbind option_bind]. rewrite Hins. replace (S (length don)) with (length (don ++ [Z.of_nat (b + c')])) by (rewrite app_length; cbn; lia).
      destruct (IH (S i) c' (Z.of_nat (b + c')) (don ++ [Z.of_nat (b + c')]) rest) as (ns & E & Hlen & Hns); [intros t ??; apply Hin; lia|apply last_snoc|lia|unfold c'; lia|]. fold zlist. rewrite E. exists (Z.of_nat (b + c') :: ns). split; [f_equal; f_equal; rewrite <- app_assoc; done|].
      split; [cbn; lia|]. intros [|t] Ht.
      * rewrite Nat.add_0_r. split; [|done]. intros _. exists c'. split; [done|]. split; [lia|]. split.
        -- destruct (decide (c' = c)); [by left|right]. exists 0, z. rewrite Nat.add_0_r. split; [done|]. split; [done|]. split; [done|]. by replace c' with r by lia.
        -- intros t' z' r' Ht' _ Ez' Hb. assert (t' = 0) as -> by lia. rewrite Nat.add_0_r in Ez'. rewrite Ez in Ez'. injection Ez' as <-. rewrite (belongs_unique _ _ _ _ Hb Hr). lia.
      * destruct (Hns t) as [H1 H2]; [lia|]. replace (i + S t) with (S i + t) by lia. split; [|exact H2]. intros Hact'. destruct (H1 Hact') as (n & En & Hcn & Hor & Hall). exists n. split; [done|]. split; [lia|]. split.
        -- destruct Hor as [->|(t' & z' & ? & Ha' & Ez' & ?)].
           ++ destruct (decide (c' = c)); [left; done|]. right. exists 0, z. rewrite Nat.add_0_r. split; [lia|]. split; [done|]. split; [done|]. by replace c' with r by lia.
           ++ right. exists (S t'), z'. split; [lia|]. replace (i + S t') with (S i + t') by lia. done.
        -- intros [|t'] z' r' Ht' Ha' Ez' Hb.
           ++ rewrite Nat.add_0_r in Ez'. rewrite Ez in Ez'. injection Ez' as <-. rewrite (belongs_unique _ _ _ _ Hb Hr). lia.
           ++ apply (Hall t' z'); [lia| | |done]; by replace (S i + t') with (i + S t') by lia.
Qed.
End column.
End proof.
