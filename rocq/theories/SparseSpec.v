(** What SparseTable and SparseVector should be: a list of rows, and a list of
    (index, value) pairs. *)
From Verif Require Import Base SparseModel.

Section spec.
Context {T : Type}.
Variable dflt : T.

(** Reading a table through its public interface. *)
Definition t_view (t : table T) : option (list (list T)) :=
  mapM (λ i, t_row t (Z.of_nat i)) (seq 0 (Z.to_nat (t_size t))).

Inductive top :=
  | TAssign (data : list T) (sizes : list Z)
  | TAllocate (sizes : list Z)
  | TAppend (row : list T)
  | TClear.

(** Cut a list into consecutive rows of the given sizes. *)
Fixpoint cut (sizes : list Z) (l : list T) : list (list T) :=
  match sizes with
  | [] => []
  | n :: sizes => take (Z.to_nat n) l :: cut sizes (drop (Z.to_nat n) l)
  end.
Definition total (sizes : list Z) : Z := foldr Z.add 0%Z sizes.

(** The rows after an operation; [None] means the operation throws. *)
Definition top_spec (p : top) (rows : list (list T)) : option (list (list T)) :=
  match p with
  | TAssign data sizes =>
      if decide (sizes ≠ [] ∧ Forall (λ n, 0 ≤ n)%Z sizes ∧ total sizes = Z.of_nat (length data))
      then Some (cut sizes data) else None
  | TAllocate sizes =>
      if decide (sizes ≠ [] ∧ Forall (λ n, 0 ≤ n)%Z sizes)
      then Some (cut sizes (resize (Z.to_nat (total sizes)) dflt (concat rows))) else None
  | TAppend row => Some (rows ++ [row])
  | TClear => Some []
  end.

(** Without debug checks the caller must not pass negative sizes. *)
Definition top_valid (debug : bool) (p : top) : Prop :=
  match p with
  | TAssign _ sizes | TAllocate sizes => debug = true ∨ Forall (λ n, 0 ≤ n)%Z sizes
  | _ => True
  end.

Definition top_step (debug : bool) (p : top) (t : table T) : bool * table T :=
  match p with
  | TAssign data sizes => assign debug data sizes t
  | TAllocate sizes => allocate dflt debug sizes t
  | TAppend row => (true, append_row row t)
  | TClear => (true, clear t)
  end.

(** Tables a program can hold: built from the default or range constructor by
    operations that did not throw. *)
Inductive t_reach (debug : bool) : table T → list (list T) → Prop :=
  | tr_empty : t_reach debug empty_table []
  | tr_construct data sizes t rows :
      top_valid debug (TAssign data sizes) →
      construct debug data sizes = Some t → top_spec (TAssign data sizes) [] = Some rows →
      t_reach debug t rows
  | tr_step t rows p t' rows' :
      t_reach debug t rows → top_valid debug p →
      top_step debug p t = (true, t') → top_spec p rows = Some rows' →
      t_reach debug t' rows'.

Definition increasing (l : list Z) : Prop :=
  ∀ i j x y, i < j → l !! i = Some x → l !! j = Some y → (x < y)%Z.

(** Sparse vectors as histories of additions. *)
Fixpoint sv_adds (l : list (Z * T)) (v : svec T) : option (svec T) :=
  match l with
  | [] => Some v
  | (i, x) :: l => v' ← sv_add x i v; sv_adds l v'
  end.
(** The stored value at an index. *)
Definition stored (l : list (Z * T)) (i : Z) : option T :=
  snd <$> list_find (λ p, p.1 = i) l ≫= λ p, Some (snd p).
End spec.
