(** Model of read_grid and allocate_grid, opm/core/grid/grid.c:55-149
    and 152-545. The file is a stream of unknown kind read by fscanf: [scan_ulong],
    [scan_int], [scan_double] are the conversions " %lu", "%d" or " %d" and
    " %lf", [None] if fscanf returns less than 1. After a failed conversion
    nothing more is read. [None] of the model is an access outside an array or a
    failed assertion. Simplifications: a number of cells, faces, nodes or
    dimensions above INT_MAX, whose conversion to int depends on the compiler,
    is also [None]; sizes of arrays do not wrap; errno, the messages and fopen
    are left out. *)
From Verif Require Import Base UniqModel.

Section file.
Context {S D : Type}.
Variables (scan_ulong : S → option (nat * S)) (scan_int : S → option (Z * S)) (scan_double : S → option (D * S)).
(** What malloc leaves in memory. *)
Variables (junk_int : Z) (junk_double : D).

(** struct UnstructuredGrid, opm/core/grid.h; pointers that may be NULL are
    options. *)
Record ugrid := UGrid {
  u_dim : nat; u_nc : nat; u_nf : nat; u_nn : nat;
  u_coords : list D;
  u_fnodes : list Z; u_fnpos : list Z; u_fcells : list Z; u_fareas : list D; u_fcent : list D; u_fnorm : list D;
  u_cfaces : list Z; u_ctag : option (list Z); u_cfpos : list Z; u_cvol : list D; u_ccent : list D;
  u_gcell : option (list Z); u_cart : list Z }.

(** [while ((i < n) && (fscanf(fp, ..., &a[i]) == 1)) i += 1;]: the array, [i]
    and the rest of the file. Behind the end of [a] a conversion that succeeds
    is an access outside; [fuel] is the length of [a] plus one. *)
Fixpoint read_loop {A} (scan : S → option (A * S)) (fuel : nat) (n : Z) (i : nat) (a : list A) (s : S) : option (list A * nat * S) :=
  match fuel with
  | 0 => None
  | Datatypes.S fuel =>
    if decide (Z.of_nat i < n)%Z then
      match scan s with
      | Some (v, s') => a ← upd a i v; read_loop scan fuel n (i + 1) a s'
      | None => Some (a, i, s)
      end
    else Some (a, i, s)
  end.
(** The loop with [i = 0] before it and [ok = i == n] behind it: the array and
    the rest of the file, or [None] inside if not ok. *)
Definition read_array {A} (scan : S → option (A * S)) (n : Z) (a : list A) (s : S) : option (option (list A * S)) :=
  '(a, i, s) ← read_loop scan (length a + 1) n 0 a s;
  Some (if decide (Z.of_nat i = n) then Some (a, s) else None).
(** The value of an int as size_t. *)
Definition to_size (v : Z) : Z := if decide (v < 0)%Z then (v + 2 ^ 64)%Z else v.

(** allocate_grid, grid.c:71-149; [oracle] answers malloc, 13 times: the grid
    and its twelve arrays. All the arrays are requested before the check. *)
Definition allocate_grid (oracle : list bool) (ndims ncells nfaces nfacenodes ncellfaces nnodes : nat) : option ugrid * list bool :=
  let '(ok, oracle) := next_alloc oracle in
  if ok then
    let arrays := take 12 oracle in
    let oracle := drop 12 oracle in
    if decide (Forall (λ b, b = true) arrays) then
      (Some (UGrid ndims ncells nfaces nnodes (replicate (nnodes * ndims) junk_double)
        (replicate nfacenodes junk_int) (replicate (nfaces + 1) junk_int) (replicate (2 * nfaces) junk_int) (replicate nfaces junk_double) (replicate (nfaces * ndims) junk_double) (replicate (nfaces * ndims) junk_double)
        (replicate ncellfaces junk_int) (Some (replicate ncellfaces junk_int)) (replicate (ncells + 1) junk_int) (replicate ncells junk_double) (replicate (ncells * ndims) junk_double)
        None [0; 0; 0]%Z), oracle)
    else (None, oracle)
  else (None, oracle).

(** [while ((i < GRID_NMETA) && (fscanf(fp, " %lu", &tmp) == 1))], grid.c:189-194. *)
Fixpoint read_meta (m : nat) (s : S) : option (list nat * S) :=
  match m with
  | 0 => Some ([], s)
  | Datatypes.S m => '(v, s) ← scan_ulong s; '(l, s) ← read_meta m s; Some (v :: l, s)
  end.

(** allocate_grid_from_file, grid.c:178-257; the inner option is NULL. *)
Definition allocate_grid_from_file (oracle : list bool) (s : S) : option (option (ugrid * Z * Z * S)) :=
  match read_meta 6 s with
  | Some ([nd; nc; nf; nn; nfn; ncf], s) =>
    match scan_int s with
    | None => Some None
    | Some (has_tag, s) =>
      match scan_int s with
      | None => Some None
      | Some (has_indexmap, s) =>
        let '(G, oracle) := allocate_grid oracle nd nc nf nfn ncf nn in
        match G with
        | None => Some None
        | Some G =>
          if decide (int_max < Z.of_nat nc ∨ int_max < Z.of_nat nf ∨ int_max < Z.of_nat nn ∨ int_max < Z.of_nat nd)%Z then None else
          let ctag := if decide (has_tag = 0)%Z then None else u_ctag G in
          let gcell := if decide (has_indexmap = 0)%Z then None else if fst (next_alloc oracle) then Some (replicate nc junk_int) else None in
          r ← read_array scan_int (Z.of_nat nd) (u_cart G) s;
          match r with
          | None => Some None
          | Some (cart, s) =>
            let cart := take nd cart ++ replicate (3 - nd) 1%Z in
            Some (Some (UGrid nd nc nf nn (u_coords G) (u_fnodes G) (u_fnpos G) (u_fcells G) (u_fareas G) (u_fcent G) (u_fnorm G) (u_cfaces G) ctag (u_cfpos G) (u_cvol G) (u_ccent G) gcell cart, has_tag, has_indexmap, s))
          end
        end
      end
    end
  | _ => Some None
  end.

(** read_grid_nodes, grid.c:260-284. *)
Definition read_grid_nodes (G : ugrid) (s : S) : option (option (ugrid * S)) :=
  r ← read_array scan_double (Z.of_nat (u_dim G * u_nn G)) (u_coords G) s;
  Some (match r with
  | Some (a, s) => Some (UGrid (u_dim G) (u_nc G) (u_nf G) (u_nn G) a (u_fnodes G) (u_fnpos G) (u_fcells G) (u_fareas G) (u_fcent G) (u_fnorm G) (u_cfaces G) (u_ctag G) (u_cfpos G) (u_cvol G) (u_ccent G) (u_gcell G) (u_cart G), s)
  | None => None end).

(** read_grid_faces, grid.c:287-388. *)
Definition read_grid_faces (G : ugrid) (s : S) : option (option (ugrid * S)) :=
  let nf := u_nf G in
  r ← read_array scan_int (Z.of_nat (nf + 1)) (u_fnpos G) s;
  match r with None => Some None | Some (fnpos, s) =>
  v ← fnpos !! nf;
  r ← read_array scan_int (to_size v) (u_fnodes G) s;
  match r with None => Some None | Some (fnodes, s) =>
  r ← read_array scan_int (Z.of_nat (2 * nf)) (u_fcells G) s;
  match r with None => Some None | Some (fcells, s) =>
  r ← read_array scan_double (Z.of_nat nf) (u_fareas G) s;
  match r with None => Some None | Some (fareas, s) =>
  r ← read_array scan_double (Z.of_nat (u_dim G * nf)) (u_fcent G) s;
  match r with None => Some None | Some (fcent, s) =>
  r ← read_array scan_double (Z.of_nat (u_dim G * nf)) (u_fnorm G) s;
  match r with None => Some None | Some (fnorm, s) =>
  Some (Some (UGrid (u_dim G) (u_nc G) (u_nf G) (u_nn G) (u_coords G) fnodes fnpos fcells fareas fcent fnorm (u_cfaces G) (u_ctag G) (u_cfpos G) (u_cvol G) (u_ccent G) (u_gcell G) (u_cart G), s))
  end end end end end end.

(** The loop over cell_faces and cell_facetag, grid.c:420-425: fscanf converts
    both, and stores the first before it looks for the second. *)
Fixpoint read_tagged (fuel : nat) (n : Z) (i : nat) (a b : list Z) (s : S) : option (list Z * list Z * nat * S) :=
  match fuel with
  | 0 => None
  | Datatypes.S fuel =>
    if decide (Z.of_nat i < n)%Z then
      match scan_int s with
      | Some (v, s') =>
        a ← upd a i v;
        match scan_int s' with
        | Some (w, s'') => b ← upd b i w; read_tagged fuel n (i + 1) a b s''
        | None => Some (a, b, i, s)
        end
      | None => Some (a, b, i, s)
      end
    else Some (a, b, i, s)
  end.
(** [while ((i < nc) && (fscanf(fp, " %d", & discard) == 1))], grid.c:451-457. *)
Fixpoint discard_ints (n : nat) (s : S) : option S :=
  match n with 0 => Some s | Datatypes.S n => '(_, s) ← scan_int s; discard_ints n s end.

(** read_grid_cells, grid.c:391-504. *)
Definition read_grid_cells (has_tag has_indexmap : Z) (G : ugrid) (s : S) : option (option (ugrid * S)) :=
  let nc := u_nc G in
  r ← read_array scan_int (Z.of_nat (nc + 1)) (u_cfpos G) s;
  match r with None => Some None | Some (cfpos, s) =>
  v ← cfpos !! nc;
  let ncf := to_size v in
  r ← (if decide (has_tag = 0)%Z then
      r ← read_array scan_int ncf (u_cfaces G) s;
      Some (match r with Some (a, s) => Some (a, u_ctag G, s) | None => None end)
    else
      match u_ctag G with
      | None => None
      | Some tag =>
        '(a, b, i, s) ← read_tagged (length (u_cfaces G) + 1) ncf 0 (u_cfaces G) tag s;
        Some (if decide (Z.of_nat i = ncf) then Some (a, Some b, s) else None)
      end);
  match r with None => Some None | Some (cfaces, ctag, s) =>
  r ← (if decide (has_indexmap = 0)%Z then match u_gcell G with None => Some (Some (None, s)) | Some _ => None end
    else match u_gcell G with
      | Some a => r ← read_array scan_int (Z.of_nat nc) a s; Some (match r with Some (a, s) => Some (Some a, s) | None => None end)
      | None => Some (match discard_ints nc s with Some s => Some (None, s) | None => None end)
      end);
  match r with None => Some None | Some (gcell, s) =>
  r ← read_array scan_double (Z.of_nat nc) (u_cvol G) s;
  match r with None => Some None | Some (cvol, s) =>
  r ← read_array scan_double (Z.of_nat (u_dim G * nc)) (u_ccent G) s;
  match r with None => Some None | Some (ccent, s) =>
  Some (Some (UGrid (u_dim G) (u_nc G) (u_nf G) (u_nn G) (u_coords G) (u_fnodes G) (u_fnpos G) (u_fcells G) (u_fareas G) (u_fcent G) (u_fnorm G) cfaces ctag cfpos cvol ccent gcell (u_cart G), s))
  end end end end end.

(** read_grid, grid.c:507-543, from the open file on; the inner option is NULL. *)
Definition read_grid (oracle : list bool) (s : S) : option (option ugrid) :=
  r ← allocate_grid_from_file oracle s;
  match r with None => Some None | Some (G, has_tag, has_indexmap, s) =>
  r ← read_grid_nodes G s;
  match r with None => Some None | Some (G, s) =>
  r ← read_grid_faces G s;
  match r with None => Some None | Some (G, s) =>
  r ← read_grid_cells has_tag has_indexmap G s;
  match r with None => Some None | Some (G, _) => Some (Some G) end
  end end end.
End file.
