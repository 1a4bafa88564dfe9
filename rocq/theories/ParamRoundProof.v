(** Writing a parameter tree and reading it back. *)
From Coq Require Import Ascii.
From stdpp Require Import strings.
From Verif Require Import Base ParamModel ParamSpec ParamProof ParamRoundSpec.

(** ** Key order *)
Lemma N_of_ascii_inj a b : N_of_ascii a = N_of_ascii b → a = b.
Proof. intros H. by rewrite <- (ascii_N_embedding a), <- (ascii_N_embedding b), H. Qed.
Lemma str_lt_irrefl s : str_lt s s = false.
Proof. induction s as [|c s IH]; simpl; [done|]. by rewrite decide_True. Qed.
Lemma str_lt_asym s t : str_lt s t = true → str_lt t s = false.
Proof.
  revert t. induction s as [|c s IH]; intros [|d t] H; simpl in *; try done.
  destruct (decide (c = d)) as [->|Hne]; [rewrite decide_True by done; by apply IH|]. rewrite decide_False by done.
  apply bool_decide_eq_true in H. apply bool_decide_eq_false. lia.
Qed.
Lemma str_lt_total s t : s ≠ t → str_lt s t = false → str_lt t s = true.
Proof.
  revert t. induction s as [|c s IH]; intros [|d t] Hne H; simpl in *; try done.
  destruct (decide (c = d)) as [->|Hcd]; [rewrite decide_True by done; apply IH; [congruence|done]|]. rewrite decide_False by done.
  apply bool_decide_eq_false in H. apply bool_decide_eq_true. assert (N_of_ascii c ≠ N_of_ascii d) by (intros E; by apply Hcd, N_of_ascii_inj). lia.
Qed.
Lemma str_lt_trans s t u : str_lt s t = true → str_lt t u = true → str_lt s u = true.
Proof.
  revert t u. induction s as [|c s IH]; intros [|d t] [|e u] H1 H2; simpl in *; try done.
  destruct (decide (c = d)) as [->|H3].
  - destruct (decide (d = e)) as [->|H4]; [by eapply IH|done].
  - apply bool_decide_eq_true in H1. destruct (decide (d = e)) as [->|H4].
    + rewrite decide_False by done. by apply bool_decide_eq_true.
    + apply bool_decide_eq_true in H2. rewrite decide_False by (intros ->; lia). apply bool_decide_eq_true. lia.
Qed.

(** ** Insertion keeps trees well formed *)
Lemma above_mset k k' v m : str_lt k k' = true → above k m → above k (mset k' v m).
Proof.
  intros Hk. induction m as [|[k2 v2] m IH]; intros H; simpl; [by constructor|]. apply Forall_cons in H as [H1 H2].
  destruct (decide (k' = k2)) as [->|]; [by constructor|]. destruct (str_lt k' k2); [by repeat constructor|]. constructor; [done|by apply IH].
Qed.
Lemma above_trans k k' m : str_lt k k' = true → above k' m → above k m.
Proof. intros H Ha. eapply Forall_impl; [exact Ha|]. intros [k2 v2] H2. by eapply str_lt_trans. Qed.
Lemma good_mset path k v m : good path m → good_entry path k v → good path (mset k v m).
Proof.
  intros H Hk. induction H as [path|path k1 v1 m He Ha Hg IH]; simpl.
  - by repeat constructor.
  - destruct (decide (k = k1)) as [<-|Hne]; [by constructor|]. destruct (str_lt k k1) eqn:E.
    + constructor; [done| |by constructor]. constructor; [done|]. by eapply above_trans.
    + constructor; [done| |by apply IH]. apply above_mset; [|done]. by apply str_lt_total.
Qed.
Lemma good_mfind path k v m : good path m → mfind k m = Some v → good_entry path k v.
Proof.
  intros H. induction H as [path|path k1 v1 m He Ha Hg IH]; simpl; [done|]. destruct (decide (k = k1)) as [->|]; [|auto]. by intros [= <-].
Qed.
Lemma ins_nonnil ws v path m m' : ins ws v path m = Ok m' → m' ≠ [].
Proof. intros H ->. apply ins_at in H. by rewrite at_nil in H. Qed.
Lemma good_ins ws v path m m' : good path m → Forall key_ok ws → value_ok v → ins ws v path m = Ok m' → good path m'.
Proof.
  revert path m m'. induction ws as [|w ws IH]; intros path m m' Hg Hk Hv H; [done|]. apply Forall_cons in Hk as [Hw Hk].
  destruct ws as [|w2 ws]; [simpl in H; simplify_eq; apply good_mset; [done|by constructor]|].
  rewrite ins_cons in H by done. destruct (mfind w m) as [[pv pt|p m1]|] eqn:Ef; [done| |].
  - destruct (ins _ _ p m1) as [a| | | | |] eqn:E; simpl in H; simplify_eq.
    apply good_mfind with (k := w) (v := Group p m1) in Hg as Hgw; [|done]. inversion Hgw; subst.
    apply good_mset; [done|]. constructor; [done|by eapply ins_nonnil|by eapply IH].
  - destruct (ins _ _ _ []) as [a| | | | |] eqn:E; simpl in H; simplify_eq. apply good_mset; [done|].
    constructor; [done|by eapply ins_nonnil|eapply IH; [constructor|done|done|exact E]].
Qed.

(** ** Leaves *)
Fixpoint leaves_of (k : str) (it : item) : list (list str * str) :=
  match it with
  | Param v _ => [([k], v)]
  | Group _ m => (λ '(ws, v), (k :: ws, v)) <$> (fix go (m : pmap) := match m with [] => [] | (k, it) :: m => leaves_of k it ++ go m end) m
  end.
Fixpoint leaves (m : pmap) : list (list str * str) :=
  match m with [] => [] | (k, it) :: m => leaves_of k it ++ leaves m end.
Lemma leaves_group k p m : leaves_of k (Group p m) = (λ '(ws, v), (k :: ws, v)) <$> leaves m.
Proof. done. Qed.
Fixpoint erase_map (m : pmap) : pmap := match m with [] => [] | (k, it) :: m => (k, erase it) :: erase_map m end.
Lemma erase_group p m : erase (Group p m) = Group p (erase_map m).
Proof. done. Qed.
Fixpoint write_map (p : str) (m : pmap) : str := match m with [] => [] | (k, it) :: m => write it p k ++ write_map p m end.
Lemma write_group_eq p m path name : m ≠ [] → write (Group p m) path name = write_map p m.
Proof. intros H. cbn [write]. rewrite decide_False by done. cbn [app]. clear H. induction m as [|[k it] m IH]; [done|]. cbn [write_map]. by rewrite <- IH. Qed.

Fixpoint ins_all (ls : list (list str * str)) (path : str) (m : pmap) : res pmap :=
  match ls with [] => Ok m | (ws, v) :: ls => match ins ws v path m with Ok m => ins_all ls path m | r => r end end.
Lemma ins_all_app l1 l2 path m m' : ins_all l1 path m = Ok m' → ins_all (l1 ++ l2) path m = ins_all l2 path m'.
Proof. revert m. induction l1 as [|[ws v] l1 IH]; intros m H; simpl in *; [by simplify_eq|]. destruct (ins ws v path m); try done. by apply IH. Qed.
Lemma mset_last k v m : Forall (λ e, str_lt (fst e) k = true) m → mset k v m = m ++ [(k, v)].
Proof.
  induction m as [|[k' v'] m IH]; intros H; simpl; [done|]. apply Forall_cons in H as [H1 H2]. simpl in H1.
  rewrite decide_False by (intros ->; by rewrite str_lt_irrefl in H1). rewrite (str_lt_asym _ _ H1). by rewrite IH.
Qed.
Lemma mset_last_again k v v' m : Forall (λ e, str_lt (fst e) k = true) m → mset k v (m ++ [(k, v')]) = m ++ [(k, v)].
Proof.
  induction m as [|[k' v2] m IH]; intros H; simpl; [by rewrite decide_True|]. apply Forall_cons in H as [H1 H2]. simpl in H1.
  rewrite decide_False by (intros ->; by rewrite str_lt_irrefl in H1). rewrite (str_lt_asym _ _ H1). by rewrite IH.
Qed.
Lemma mfind_last k m : Forall (λ e, str_lt (fst e) k = true) m → mfind k m = None.
Proof.
  induction m as [|[k' v'] m IH]; intros H; simpl; [done|]. apply Forall_cons in H as [H1 H2]. simpl in H1.
  rewrite decide_False by (intros ->; by rewrite str_lt_irrefl in H1). auto.
Qed.
Lemma mfind_last_again k v m : Forall (λ e, str_lt (fst e) k = true) m → mfind k (m ++ [(k, v)]) = Some v.
Proof.
  induction m as [|[k' v'] m IH]; intros H; simpl; [by rewrite decide_True|]. apply Forall_cons in H as [H1 H2]. simpl in H1.
  rewrite decide_False by (intros ->; by rewrite str_lt_irrefl in H1). auto.
Qed.
Lemma ins_all_under k ls path p m0 m1 m2 : Forall (λ e, str_lt (fst e) k = true) m0 → Forall (λ l, fst l ≠ []) ls →
  ins_all ls p m1 = Ok m2 →
  ins_all ((λ '(ws, v), (k :: ws, v)) <$> ls) path (m0 ++ [(k, Group p m1)]) = Ok (m0 ++ [(k, Group p m2)]).
Proof.
  intros Hm Hls. revert m1. induction ls as [|[ws v] ls IH]; intros m1 H; [simpl in *; by simplify_eq|].
  apply Forall_cons in Hls as [Hw Hls]. cbn [fmap list_fmap ins_all] in *. rewrite ins_cons by done. rewrite mfind_last_again by done.
  destruct (ins ws v p m1) as [a| | | | |]; try done. cbn [rmap]. rewrite mset_last_again by done. by apply IH.
Qed.
Lemma ins_all_new k ls path m0 m2 : Forall (λ e, str_lt (fst e) k = true) m0 → Forall (λ l, fst l ≠ []) ls → ls ≠ [] →
  ins_all ls (path ++ [slash] ++ k) [] = Ok m2 →
  ins_all ((λ '(ws, v), (k :: ws, v)) <$> ls) path m0 = Ok (m0 ++ [(k, Group (path ++ [slash] ++ k) m2)]).
Proof.
  intros Hm Hls Hne H. destruct ls as [|[ws v] ls]; [done|]. apply Forall_cons in Hls as [Hw Hls]. simpl in Hw. cbn [ins_all] in H.
  cbn [fmap list_fmap ins_all]. rewrite ins_cons, mfind_last by done.
  destruct (ins ws v (path ++ [slash] ++ k) []) as [a| | | | |]; try done. cbn [rmap].
  rewrite mset_last by done. by apply ins_all_under.
Qed.
Lemma leaves_nonnil m : Forall (λ l, fst l ≠ []) (leaves m).
Proof.
  induction m as [|[k [v t|p m1]] m IH]; simpl; [constructor|by constructor|]. apply Forall_app. split; [|done].
  apply Forall_fmap, Forall_true. by intros [].
Qed.
Lemma leaves_exist path m : good path m → m ≠ [] → leaves m ≠ [].
Proof.
  intros H. induction H as [path|path k it m He IHe Ha Hg IH|path k v t Hkey Hval|path k m1 Hkey Hne Hg IHgood] using good_ind2 with (P0 := λ path k it _, leaves_of k it ≠ []); try done.
  - cbn [leaves]. intros _ Hx. apply app_eq_nil in Hx as [Hx _]. done.
  - rewrite leaves_group. intros Hx. apply fmap_nil_inv in Hx. by apply IHgood.
Qed.
Lemma rebuild path m : good path m → ∀ m0, (∀ e f, e ∈ m0 → f ∈ m → str_lt (fst e) (fst f) = true) →
  ins_all (leaves m) path m0 = Ok (m0 ++ erase_map m).
Proof.
  intros H. induction H as [path|path k it m He IHe Ha Hg IH|path k v t Hkey Hval|path k m1 Hkey Hne Hg IHgood] using good_ind2 with
   (P0 := λ path k it _, ∀ m0, Forall (λ e, str_lt (fst e) k = true) m0 → ins_all (leaves_of k it) path m0 = Ok (m0 ++ [(k, erase it)])).
  - intros m0 _. simpl. by rewrite app_nil_r.
  - intros m0 Hm. cbn [leaves erase_map]. rewrite (ins_all_app _ _ _ _ (m0 ++ [(k, erase it)])).
    + rewrite IH; [by rewrite <- app_assoc|]. intros e f He1 Hf. apply elem_of_app in He1 as [He1| ->%elem_of_list_singleton].
      * apply Hm; [done|by right]. * simpl. unfold above in Ha. rewrite Forall_forall in Ha. by apply Ha.
    + apply IHe. rewrite Forall_forall. intros e He1. apply (Hm e (k, it)); [done|by left].
  - intros m0 Hm. simpl. by rewrite mset_last.
  - intros m0 Hm. rewrite leaves_group, erase_group. apply ins_all_new; [done|apply leaves_nonnil| |].
    + by eapply leaves_exist.
    + rewrite IHgood; [done|]. intros e f He. by apply elem_of_nil in He.
Qed.

(** ** Text *)
Lemma lines_cons l s : newline ∉ l → lines (l ++ newline :: s) = l :: lines s.
Proof.
  induction l as [|c l IH]; intros H; cbn [app lines]; [by rewrite decide_True|].
  apply not_elem_of_cons in H as [H1 H2]. rewrite decide_False by done. by rewrite IH.
Qed.
(** The text of a path, with a leading slash per component. *)
Fixpoint spell (ws : list str) : str := match ws with [] => [] | w :: ws => [slash] ++ w ++ spell ws end.
Lemma spell_app ws vs : spell (ws ++ vs) = spell ws ++ spell vs.
Proof. induction ws as [|w ws IH]; [done|]. cbn [app spell]. rewrite IH. by rewrite !app_assoc. Qed.
Definition leaf_line (ws : list str) (v : str) : str := spell ws ++ [equals] ++ v.
Lemma key_ok_chars w : key_ok w → w ≠ [] ∧ slash ∉ w ∧ equals ∉ w ∧ newline ∉ w.
Proof. done. Qed.
Lemma spell_no c ws : c ≠ slash → Forall (λ w, c ∉ w) ws → c ∉ spell ws.
Proof.
  intros Hc. induction 1 as [|w ws H1 H2 IH]; [apply not_elem_of_nil|]. cbn [spell app]. rewrite not_elem_of_cons, not_elem_of_app. done.
Qed.
Lemma leaf_no_newline ws v : Forall key_ok ws → value_ok v → newline ∉ leaf_line ws v.
Proof.
  intros Hk (H1 & H2 & H3). unfold leaf_line. rewrite not_elem_of_app, not_elem_of_app, elem_of_list_singleton.
  split_and!; [|done|done]. apply spell_no; [done|]. eapply Forall_impl; [done|]. intros w Hw; by apply Hw.
Qed.
Lemma write_lines path m ws : good path m → path = spell ws → Forall key_ok ws → ∀ s,
  lines (write_map path m ++ s) = ((λ '(vs, v), leaf_line (ws ++ vs) v) <$> leaves m) ++ lines s.
Proof.
  intros H. revert ws. induction H as [path|path k it m He IHe Ha Hg IH|path k v t Hkey Hval|path k m1 Hkey Hne Hg IHgood] using good_ind2 with
    (P0 := λ path k it _, ∀ ws, path = spell ws → Forall key_ok ws → ∀ s, lines (write it path k ++ s) = ((λ '(vs, v), leaf_line (ws ++ vs) v) <$> leaves_of k it) ++ lines s).
  - done.
  - intros ws Hp Hk s. cbn [write_map leaves]. rewrite <- app_assoc, (IHe ws), (IH ws) by done. by rewrite fmap_app, app_assoc.
  - intros ws -> Hk s. cbn [write leaves_of fmap list_fmap].
    assert (E : leaf_line (ws ++ [k]) v = spell ws ++ [slash] ++ k ++ [equals] ++ v).
    { unfold leaf_line. rewrite spell_app. cbn [spell]. by rewrite app_nil_r, <- !app_assoc. }
    rewrite E. replace ((spell ws ++ [slash] ++ k ++ [equals] ++ v ++ [newline]) ++ s)
      with ((spell ws ++ [slash] ++ k ++ [equals] ++ v) ++ newline :: s) by (by rewrite <- !app_assoc).
    rewrite lines_cons; [done|]. rewrite <- E. apply leaf_no_newline; [|done]. apply Forall_app. auto.
  - intros ws -> Hk s. rewrite write_group_eq by done. rewrite leaves_group, <- list_fmap_compose.
    rewrite (IHgood (ws ++ [k])).
    + f_equal. apply list_fmap_ext. intros i [vs v] _. simpl. by rewrite <- app_assoc.
    + rewrite spell_app. cbn [spell]. by rewrite app_nil_r.
    + apply Forall_app. auto.
Qed.
(** No comment in a line. *)
Lemma find_comment_none_app a s : slash ∉ a → a ≠ [] → find comment s = None → find comment (a ++ s) = None.
Proof.
  intros Ha Hne Hs. clear Hne. induction a as [|c a IH]; [done|]. apply not_elem_of_cons in Ha as [H1 H2].
  cbn [app find]. unfold comment at 1. cbn [starts_with]. rewrite bool_decide_false by done. cbn [andb]. by rewrite IH.
Qed.
Lemma find_comment_slash c a s : c ≠ slash → find comment (c :: a ++ s) = None → find comment (slash :: c :: a ++ s) = None.
Proof. intros Hc H. cbn [find]. unfold comment at 1. cbn [starts_with]. rewrite bool_decide_true by done. rewrite bool_decide_false by done. cbn [andb]. cbn [find] in H. by rewrite H. Qed.
Lemma no_comment ws v : Forall key_ok ws → value_ok v → find comment (leaf_line ws v) = None.
Proof.
  intros Hk (Hv1 & Hv2 & Hv3). induction Hk as [|w ws (H1 & H2 & H3 & H4) Hk IH].
  - unfold leaf_line. cbn [spell app]. apply (find_comment_none_app [equals] v); [|done|done]. rewrite elem_of_list_singleton. done.
  - unfold leaf_line in *. cbn [spell]. rewrite <- !app_assoc. cbn [app].
    destruct w as [|c w]; [done|]. cbn [app]. apply find_comment_slash.
    + apply not_elem_of_cons in H2 as [H2 _]. intros ->. by apply H2.
    + apply (find_comment_none_app (c :: w)); [done|done|done].
Qed.
Lemma comps_spell ws : Forall key_ok ws → comps (spell ws) = ws.
Proof.
  induction 1 as [|w ws (H1 & H2 & H3 & H4) Hk IH]; [done|]. cbn [spell app]. rewrite comps_lead.
  destruct Hk as [|w2 ws Hw2 Hk]; [simpl; rewrite app_nil_r; by apply comps_plain|].
  cbn [spell app] in *. rewrite comps_slash by done. rewrite comps_lead in IH. by rewrite IH.
Qed.
Lemma name_ok_spell ws : Forall key_ok ws → ws ≠ [] → name_ok (spell ws).
Proof.
  intros Hk Hne. destruct (exists_last Hne) as (ws' & w & ->). apply Forall_app in Hk as [_ Hw]. apply Forall_cons in Hw as [(H1 & H2 & _) _].
  rewrite spell_app. cbn [spell app]. rewrite app_nil_r. apply name_ok_slash_back. by apply name_ok_plain.
Qed.
Lemma read_leaf fuel ws v path m : Forall key_ok ws → ws ≠ [] → value_ok v → length (spell ws) < fuel →
  read_line fuel (leaf_line ws v) path m = Some (ins ws v path m).
Proof.
  intros Hk Hne Hv Hf. unfold read_line. rewrite no_comment by done. rewrite decide_False by done. cbv zeta.
  destruct Hv as (Hv1 & Hv2 & Hv3).
  assert (He : equals ∉ spell ws). { apply spell_no; [done|]. eapply Forall_impl; [done|]. intros w Hw; by apply Hw. }
  unfold leaf_line. cbn [app]. rewrite find1_in by done. unfold find_at. rewrite app_length. cbn [length]. rewrite decide_True by lia.
  assert (Ed : drop (length (spell ws) + 1) (spell ws ++ equals :: v) = v) by (by rewrite <- drop_drop, drop_app).
  rewrite Ed, find1_notin by done. cbn [fmap option_fmap option_map]. rewrite take_app.
  rewrite insert_ins; [by rewrite comps_spell|by apply name_ok_spell|done].
Qed.
Lemma read_leaves fuel ls path m : Forall (λ l, Forall key_ok (fst l) ∧ fst l ≠ [] ∧ value_ok (snd l) ∧ length (spell (fst l)) < fuel) ls →
  read_lines fuel ((λ '(ws, v), leaf_line ws v) <$> ls) path m = Some (ins_all ls path m).
Proof.
  revert m. induction ls as [|[ws v] ls IH]; intros m H; [done|]. apply Forall_cons in H as [(H1 & H2 & H3 & H4) H].
  cbn [fmap list_fmap read_lines ins_all]. rewrite read_leaf by done. cbn [mbind option_bind]. destruct (ins ws v path m); try done. by apply IH.
Qed.
Lemma leaves_ok path m : good path m → Forall (λ l, Forall key_ok (fst l) ∧ fst l ≠ [] ∧ value_ok (snd l)) (leaves m).
Proof.
  intros H. induction H as [path|path k it m He IHe Ha Hg IH|path k v t Hkey Hval|path k m1 Hkey Hne Hg IHgood] using good_ind2 with
    (P0 := λ path k it _, Forall (λ l, Forall key_ok (fst l) ∧ fst l ≠ [] ∧ value_ok (snd l)) (leaves_of k it)).
  - constructor.
  - cbn [leaves]. by apply Forall_app.
  - cbn [leaves_of]. constructor; [|constructor]. simpl. split_and!; [by constructor|done|done].
  - rewrite leaves_group. apply Forall_fmap. eapply Forall_impl; [done|]. intros [ws v'] (H1 & H2 & H3). simpl in *. split_and!; [by constructor|done|done].
Qed.
