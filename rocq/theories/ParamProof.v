(** Lemmas about the parameter tree. *)
From Coq Require Import Ascii.
From stdpp Require Import strings.
From Verif Require Import Base ParamModel ParamSpec.

(** ** Strings *)
Lemma find1_in c w r : c ∉ w → find [c] (w ++ c :: r) = Some (length w).
Proof.
  induction w as [|d w IH]; intros H; simpl; [by rewrite bool_decide_true|].
  rewrite bool_decide_false by (intros ->; apply H; left). simpl. rewrite IH; [done|]. intros ?; apply H; by right.
Qed.
Lemma find1_notin c w : c ∉ w → find [c] w = None.
Proof.
  induction w as [|d w IH]; intros H; simpl; [done|].
  rewrite bool_decide_false by (intros ->; apply H; left). simpl. rewrite IH; [done|]. intros ?; apply H; by right.
Qed.
Lemma cut (c : ascii) (s : str) : c ∉ s ∨ ∃ w r, s = w ++ c :: r ∧ c ∉ w.
Proof.
  induction s as [|d s IH]; [left; apply not_elem_of_nil|]. destruct (decide (d = c)) as [->|Hd].
  - right. exists [], s. split; [done|apply not_elem_of_nil].
  - destruct IH as [IH|(w & r & -> & Hw)]; [left|right].
    + rewrite not_elem_of_cons. auto.
    + exists (d :: w), r. split; [done|]. rewrite not_elem_of_cons. auto.
Qed.
Lemma split_plain w : slash ∉ w → split w = (w, []).
Proof. intros H. unfold split. by rewrite find1_notin. Qed.
Lemma split_slash w r : slash ∉ w → split (w ++ slash :: r) = (w, r).
Proof. intros H. unfold split. rewrite find1_in by done. rewrite take_app. f_equal. by rewrite <- drop_drop, drop_app. Qed.
Lemma words_plain w : slash ∉ w → words w = [w].
Proof.
  induction w as [|c w IH]; [done|]. rewrite not_elem_of_cons. intros [H1 H2]. simpl.
  rewrite decide_False by (intros ->; by apply H1). by rewrite IH.
Qed.
Lemma words_slash w r : slash ∉ w → words (w ++ slash :: r) = w :: words r.
Proof.
  induction w as [|c w IH]; [done|]. rewrite not_elem_of_cons. intros [H1 H2]. simpl.
  rewrite decide_False by (intros ->; by apply H1). by rewrite IH.
Qed.
Lemma comps_nil : comps [] = [].
Proof. done. Qed.
Lemma comps_plain w : slash ∉ w → w ≠ [] → comps w = [w].
Proof. intros H Hw. unfold comps. rewrite words_plain by done. rewrite filter_cons_True by done. done. Qed.
Lemma comps_slash w r : slash ∉ w → w ≠ [] → comps (w ++ slash :: r) = w :: comps r.
Proof. intros H Hw. unfold comps. rewrite words_slash by done. by rewrite filter_cons_True. Qed.
Lemma comps_lead r : comps (slash :: r) = comps r.
Proof. unfold comps. change (words (slash :: r)) with ([] :: words r). rewrite filter_cons_False; [done|]. naive_solver. Qed.

Lemma name_ok_slash w r : r ≠ [] → name_ok (w ++ slash :: r) → name_ok r.
Proof.
  intros Hr (s' & a & Ha & H). destruct (exists_last Hr) as (r' & x & ->).
  destruct H as [H|H].
  - exists r', a. split; [done|]. left. rewrite app_comm_cons, app_assoc in H. by apply app_inj_tail in H as [_ ->].
  - change [a; "/"%char] with ([a] ++ ["/"%char]) in H. rewrite app_comm_cons, !app_assoc in H. apply app_inj_tail in H as [H ->].
    destruct r' as [|y r' _] using rev_ind.
    + apply app_inj_tail in H as [_ H]. exfalso. by apply Ha.
    + rewrite app_comm_cons, app_assoc in H. apply app_inj_tail in H as [_ ->]. exists r', a. split; [done|]. right. by rewrite <- app_assoc.
Qed.
Lemma name_ok_slash_back w r : name_ok r → name_ok (w ++ slash :: r).
Proof. intros (s' & a & Ha & [-> | ->]); exists (w ++ slash :: s'), a; (split; [done|]); [left|right]; by rewrite app_comm_cons, app_assoc. Qed.
Lemma name_ok_plain w : slash ∉ w → w ≠ [] → name_ok w ∧ name_ok (w ++ [slash]).
Proof.
  intros H Hw. destruct (exists_last Hw) as (w' & a & ->). assert (a ≠ slash) by (intros ->; apply H; rewrite elem_of_app; right; by left).
  split; exists w', a; split; auto. right. by rewrite <- app_assoc.
Qed.
Lemma not_name_ok_nil : ¬ name_ok [].
Proof. intros (s' & a & _ & [H|H]); by destruct s'. Qed.
Lemma not_name_ok_slash : ¬ name_ok [slash].
Proof. intros (s' & a & Ha & [H|H]); destruct s' as [|x [|y s']]; simpl in H; try discriminate H. injection H as <-. by apply Ha. Qed.

(** ** Skipping empty components *)
Lemma skip_ok name fuel : name_ok name → length name < fuel →
  ∃ w r, skip_empty fuel (split name) = Some (w, r) ∧ plain w ∧ comps name = w :: comps r ∧ (r = [] ∨ name_ok r) ∧ length r < length name.
Proof.
  revert name. induction fuel as [|f IH]; intros name Hok Hf; [lia|]. cbn [skip_empty].
  destruct (cut slash name) as [Hn|(w & r & -> & Hw)].
  - rewrite split_plain by done. simpl. destruct (decide (name = [])) as [->|Hne]; [by apply not_name_ok_nil in Hok|].
    exists name, []. split_and!; [done|done|by rewrite comps_plain|by left|]. simpl. destruct name; [done|simpl; lia].
  - rewrite split_slash by done. simpl. rewrite app_length in *. simpl in *. destruct (decide (w = [])) as [->|Hne].
    + assert (Hr : r ≠ []) by (intros ->; by apply not_name_ok_slash in Hok).
      apply name_ok_slash in Hok; [|done]. destruct (IH r Hok) as (w' & r' & E & Hp & Hc & Hr' & Hl); [simpl in *; lia|].
      exists w', r'. cbn [app]. rewrite comps_lead. split_and!; [done|done|done|done|simpl; lia].
    + exists w, r. split_and!; [done|done|by rewrite comps_slash| |lia].
      destruct (decide (r = [])); [by left|right]. by eapply name_ok_slash.
Qed.
Lemma skip_hang fuel name : comps name = [] → skip_empty fuel (split name) = None.
Proof.
  revert name. induction fuel as [|f IH]; intros name H; [done|]. cbn [skip_empty].
  destruct (cut slash name) as [Hn|(w & r & -> & Hw)].
  - rewrite split_plain by done. destruct name as [|c name]; [|by rewrite comps_plain in H]. simpl. by apply IH.
  - rewrite split_slash by done. destruct w as [|c w]; [|by rewrite comps_slash in H]. simpl. apply IH. by rewrite <- comps_lead.
Qed.
Lemma skip_bad fuel name w r : skip_empty fuel (split name) = Some (w, r) → ¬ name_ok name → r ≠ [] ∧ ¬ name_ok r ∧ w ≠ [].
Proof.
  revert name. induction fuel as [|f IH]; intros name H Hn; [done|]. cbn [skip_empty] in H.
  destruct (cut slash name) as [Hs|(w' & r' & -> & Hw)].
  - rewrite split_plain in H by done. simpl in H. destruct (decide (name = [])) as [->|Hne]; [|simplify_eq; exfalso; by apply Hn, name_ok_plain].
    by apply (IH []) in H.
  - rewrite split_slash in H by done. simpl in H. destruct (decide (w' = [])) as [->|Hne].
    + apply (IH r'); [done|]. intros Hx. apply Hn. by apply name_ok_slash_back.
    + simplify_eq. split_and!; [intros ->; by apply Hn, name_ok_plain| |done]. intros Hx. apply Hn. by apply name_ok_slash_back.
Qed.

(** ** Maps *)
Lemma mfind_mset_eq k v m : mfind k (mset k v m) = Some v.
Proof. induction m as [|[k' v'] m IH]; simpl; [by rewrite decide_True|]. destruct (decide (k = k')) as [->|]; [|destruct (str_lt k k')]; simpl.
  - by rewrite decide_True. - by rewrite decide_True. - by rewrite decide_False. Qed.
Lemma mfind_mset_ne k k' v m : k ≠ k' → mfind k' (mset k v m) = mfind k' m.
Proof.
  intros H. induction m as [|[k2 v2] m IH]; simpl; [by rewrite decide_False|].
  destruct (decide (k = k2)) as [->|]; [|destruct (str_lt k k2)]; simpl.
  - by rewrite !decide_False.
  - by rewrite (decide_False (P := k' = k)).
  - by rewrite IH.
Qed.

(** ** Insertion by components *)
Fixpoint ins (ws : list str) (v path : str) (m : pmap) : res pmap :=
  match ws with
  | [] => BadCast
  | w :: ws =>
      match ws with
      | [] => Ok (mset w (Param v cmdline) m)
      | _ => match mfind w m with
             | None => let p := path ++ [slash] ++ w in rmap (λ m', mset w (Group p m') m) (ins ws v p [])
             | Some (Group p m1) => rmap (λ m', mset w (Group p m') m) (ins ws v p m1)
             | Some (Param _ _) => BadCast
             end
      end
  end.
Lemma comps_ok r : name_ok r → comps r ≠ [].
Proof.
  intros H. destruct (skip_ok r (S (length r)) H) as (w & r' & _ & _ & -> & _); [lia|done].
Qed.
Lemma insert_ins fuel name v path m : name_ok name → length name < fuel →
  insert_parameter fuel name v path m = Some (ins (comps name) v path m).
Proof.
  revert name path m. induction fuel as [|f IH]; intros name path m Hok Hf; [lia|]. cbn [insert_parameter].
  destruct (skip_ok name (S f) Hok Hf) as (w & r & -> & Hp & -> & Hr & Hl). cbn [mbind option_bind].
  destruct (decide (r = [])) as [->|Hne].
  - rewrite comps_nil. cbn [ins]. by destruct (mfind w m).
  - destruct Hr as [?|Hr]; [done|]. pose proof (comps_ok r Hr) as Hc.
    destruct (comps r) as [|w2 ws] eqn:Ec; [done|]. cbn [ins].
    destruct (mfind w m) as [[pv pt|p m1]|]; [done| |]; (rewrite IH by (done || lia)); rewrite Ec; done.
Qed.
Lemma insert_hang fuel name v path m : ¬ name_ok name →
  insert_parameter fuel name v path m = None ∨ insert_parameter fuel name v path m = Some BadCast.
Proof.
  revert name path m. induction fuel as [|f IH]; intros name path m Hok; [by left|]. cbn [insert_parameter].
  destruct (skip_empty (S f) (split name)) as [[w r]|] eqn:E; [|by left]. apply skip_bad in E as (Hr & Hr' & Hw); [|done].
  cbn [mbind option_bind].
  destruct (mfind w m) as [[pv pt|p m1]|]; rewrite decide_False by done; [by right| |].
  - destruct (IH r p m1 Hr') as [-> | ->]; [by left|by right].
  - destruct (IH r (path ++ [slash] ++ w) [] Hr') as [-> | ->]; [by left|by right].
Qed.
Lemma insert_hang_nil fuel name v path : ¬ name_ok name → insert_parameter fuel name v path [] = None.
Proof.
  revert name path. induction fuel as [|f IH]; intros name path Hok; [done|]. cbn [insert_parameter].
  destruct (skip_empty (S f) (split name)) as [[w r]|] eqn:E; [|done]. apply skip_bad in E as (Hr & Hr' & Hw); [|done].
  cbn [mbind option_bind mfind]. rewrite !decide_False by done. by rewrite IH.
Qed.

Lemma at_cons m w ws : ws ≠ [] → at_path m (w :: ws) = match mfind w m with Some (Group _ m1) => at_path m1 ws | _ => None end.
Proof. by destruct ws. Qed.
Lemma at_nil ws : at_path [] ws = None.
Proof. by destruct ws as [|w [|]]. Qed.
Lemma ins_cons w ws v path m : ws ≠ [] → ins (w :: ws) v path m =
  match mfind w m with
  | None => rmap (λ m', mset w (Group (path ++ [slash] ++ w) m') m) (ins ws v (path ++ [slash] ++ w) [])
  | Some (Group p m1) => rmap (λ m', mset w (Group p m') m) (ins ws v p m1)
  | Some (Param _ _) => BadCast
  end.
Proof. by destruct ws. Qed.

Lemma ins_at ws v path m m' : ins ws v path m = Ok m' → at_path m' ws = Some (Param v cmdline).
Proof.
  revert path m m'. induction ws as [|w ws IH]; intros path m m' H; [done|].
  destruct ws as [|w2 ws]; [simpl in *; simplify_eq; by rewrite mfind_mset_eq|].
  rewrite ins_cons in H by done. rewrite at_cons by done.
  destruct (mfind w m) as [[pv pt|p m1]|]; [done| |].
  - destruct (ins _ _ p m1) as [a| | | | |] eqn:E; simpl in H; simplify_eq. rewrite mfind_mset_eq. by eapply IH.
  - destruct (ins _ _ _ []) as [a| | | | |] eqn:E; simpl in H; simplify_eq. rewrite mfind_mset_eq. by eapply IH.
Qed.
Lemma ins_frame ws v path m m' q : ins ws v path m = Ok m' → ¬ ws `prefix_of` q → ¬ q `prefix_of` ws → at_path m' q = at_path m q.
Proof.
  revert path m m' q. induction ws as [|w ws IH]; intros path m m' q H H1 H2; [done|].
  destruct q as [|x q]; [done|]. destruct (decide (w = x)) as [<-|Hne].
  - assert (H3 : ¬ ws `prefix_of` q) by (intros Hx; by apply H1, prefix_cons). assert (H4 : ¬ q `prefix_of` ws) by (intros Hx; by apply H2, prefix_cons).
    destruct ws as [|w2 ws]; [exfalso; apply H3, prefix_nil|]. destruct q as [|y q]; [exfalso; apply H4, prefix_nil|].
    rewrite ins_cons in H by done. rewrite !at_cons by done.
    destruct (mfind w m) as [[pv pt|p m1]|]; [done| |].
    + destruct (ins _ _ p m1) as [a| | | | |] eqn:E; simpl in H; simplify_eq. rewrite mfind_mset_eq. by eapply IH.
    + destruct (ins _ _ _ []) as [a| | | | |] eqn:E; simpl in H; simplify_eq. rewrite mfind_mset_eq.
      rewrite (IH _ _ _ _ E H3 H4). apply at_nil.
  - assert (Hm : mfind x m' = mfind x m).
    { destruct ws as [|w2 ws]; [simpl in H; simplify_eq; by apply mfind_mset_ne|]. rewrite ins_cons in H by done.
      destruct (mfind w m) as [[pv pt|p m1]|]; [done| |].
      + destruct (ins _ _ p m1) as [a| | | | |] eqn:E; simpl in H; simplify_eq. by apply mfind_mset_ne.
      + destruct (ins _ _ _ []) as [a| | | | |] eqn:E; simpl in H; simplify_eq. by apply mfind_mset_ne. }
    destruct q as [|y q]; [done|]. by rewrite !at_cons, Hm by done.
Qed.
Lemma at_below m ws q v t : at_path m ws = Some (Param v t) → q ≠ [] → at_path m (ws ++ q) = None.
Proof.
  revert m. induction ws as [|w ws IH]; intros m H Hq; [done|]. destruct ws as [|w2 ws].
  - simpl app. rewrite at_cons by done. simpl in H. by rewrite H.
  - rewrite at_cons in H by done. cbn [app]. rewrite at_cons by done. destruct (mfind w m) as [[|]|]; try done. by apply IH.
Qed.
Lemma at_above m ws q it : at_path m (ws ++ q) = Some it → q ≠ [] → ws ≠ [] → ∃ p m1, at_path m ws = Some (Group p m1).
Proof.
  revert m. induction ws as [|w ws IH]; intros m H Hq Hw; [done|]. destruct ws as [|w2 ws].
  - simpl app in H. rewrite at_cons in H by done. simpl. destruct (mfind w m) as [[|]|]; try done. eauto.
  - cbn [app] in H. rewrite at_cons in H by done. rewrite at_cons by done. destruct (mfind w m) as [[|]|]; try done. by apply (IH m0).
Qed.
Lemma blocked_nil ws : ¬ blocked [] ws.
Proof. intros (p & q & v & t & _ & _ & _ & H). by rewrite at_nil in H. Qed.
Lemma blocked_cons m w ws : ws ≠ [] → blocked m (w :: ws) ↔
  match mfind w m with Some (Param _ _) => True | Some (Group _ m1) => blocked m1 ws | None => False end.
Proof.
  intros Hws. split.
  - intros (p & q & v & t & E & Hp & Hq & Ha). destruct p as [|x p]; [done|]. injection E as <- ->.
    destruct p as [|y p]; [simpl in Ha; by rewrite Ha|]. rewrite at_cons in Ha by done. destruct (mfind w m) as [[|]|]; try done.
    by exists (y :: p), q, v, t.
  - destruct (mfind w m) as [[v t|pp m1]|] eqn:E; [|intros (p & q & v & t & -> & Hp & Hq & Ha)|done].
    + intros _. exists [w], ws, v, t. split_and!; try done.
    + exists (w :: p), q, v, t. split_and!; try done. rewrite at_cons by done. by rewrite E.
Qed.
Lemma ins_result ws v path m : ws ≠ [] → (blocked m ws ∧ ins ws v path m = BadCast) ∨ (¬ blocked m ws ∧ ∃ m', ins ws v path m = Ok m').
Proof.
  revert path m. induction ws as [|w ws IH]; intros path m Hw; [done|]. destruct ws as [|w2 ws].
  - right. split; [|by eexists]. intros (p & q & v' & t & E & Hp & Hq & _). destruct p as [|? [|]], q; done.
  - rewrite ins_cons, blocked_cons by done. destruct (mfind w m) as [[|p m1]|]; [left; done| |].
    + destruct (IH p m1) as [[Hb ->]|[Hb [m' ->]]]; [done|left; done|right]. split; [done|]. by eexists.
    + destruct (IH (path ++ [slash] ++ w) []) as [[Hb _]|[Hb [m' ->]]]; [done|by apply blocked_nil in Hb|right]. split; [tauto|]. by eexists.
Qed.

(** ** Lookup *)
Lemma join_cons w ws : ws ≠ [] → join (w :: ws) = w ++ slash :: join ws.
Proof. by destruct ws. Qed.
Lemma split_join w ws : plain w → split (join (w :: ws)) = (w, join ws).
Proof.
  intros [Hw Hs]. destruct ws as [|w2 ws]; [by apply split_plain|]. rewrite join_cons by done. by apply split_slash.
Qed.
Lemma join_nonnil w ws : plain w → join (w :: ws) ≠ [].
Proof. intros [Hw _]. destruct ws; [done|]. rewrite join_cons by done. by destruct w. Qed.
Lemma get_item_at fuel ws m ps it : Forall plain ws → at_path m ws = Some it → length ws ≤ fuel → get_item fuel (join ws) m ps = Some (Ok it).
Proof.
  revert fuel m ps. induction ws as [|w ws IH]; intros fuel m ps Hp H Hf; [done|].
  apply Forall_cons in Hp as [Hw Hp]. destruct fuel as [|f]; [simpl in Hf; lia|]. cbn [get_item]. rewrite split_join by done.
  destruct ws as [|w2 ws].
  - simpl in H. by rewrite H.
  - rewrite at_cons in H by done. destruct (mfind w m) as [[|p m1]|]; try done.
    rewrite decide_False by (apply join_nonnil; by apply Forall_cons in Hp as [? _]). apply IH; [done|done|simpl in *; lia].
Qed.
Lemma has_at fuel ws m : ws ≠ [] → Forall plain ws → length ws ≤ fuel →
  (blocked m ws → has fuel (join ws) m = Some BadCast) ∧ (¬ blocked m ws → has fuel (join ws) m = Some (Ok (bool_decide (is_Some (at_path m ws))))).
Proof.
  revert fuel m. induction ws as [|w ws IH]; intros fuel m Hw Hp Hf; [done|].
  apply Forall_cons in Hp as [Hpw Hp]. destruct fuel as [|f]; [simpl in Hf; lia|]. cbn [has]. rewrite split_join by done.
  destruct ws as [|w2 ws].
  - split; [intros (p & q & v' & t & E & Hp' & Hq & _); destruct p as [|? [|]], q; done|]. intros _. simpl.
    destruct (mfind w m); [by rewrite bool_decide_true|]. rewrite bool_decide_false; [done|]. by intros [? ?].
  - rewrite blocked_cons, at_cons by done.
    assert (Hj : join (w2 :: ws) ≠ []) by (apply join_nonnil; by apply Forall_cons in Hp as [? _]).
    destruct (mfind w m) as [[|p m1]|].
    + rewrite decide_False by done. split; [done|]. intros H; exfalso; by apply H.
    + rewrite decide_False by done. apply IH; [done|done|simpl in *; lia].
    + split; [done|]. intros _. rewrite bool_decide_false; [done|]. by intros [? ?].
Qed.
