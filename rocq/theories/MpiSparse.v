(** MpiSparse.v -- the sparse export and the PyPardiso factorisation on several
    MPI processes.

    PETSc gives every rank a range of consecutive rows.  Mat.getValuesCSR returns
    the rows of the calling rank: row starts counted from its first entry, column
    numbers of the whole matrix. *)
From Coq Require Import Reals List Lia Bool.
From Verif Require Import Base DriverModel.
Import ListNotations.
Open Scope nat_scope.

(** rank r has the rows start r, .., start (r + 1) - 1 *)
Record rows_ok (n rows : nat) (start : nat -> nat) : Prop := {
  ro_first : start 0 = 0;
  ro_last : start n = rows;
  ro_mono : forall r, start r <= start (S r) }.
(** rows lo, .., hi - 1 of compressed rows *)
Definition csr_rows (C : csr) (lo hi : nat) : csr :=
  let s := nth lo (ai C) 0 in
  let e := nth hi (ai C) 0 in
  mkCsr (map (fun k => nth k (ai C) 0 - s) (seq lo (S (hi - lo))))
        (firstn (e - s) (skipn s (aj C))) (firstn (e - s) (skipn s (av C))).
(** the local part of a distributed matrix *)
Definition mat_rank (A : pmat) (start : nat -> nat) (r : nat) : pmat :=
  mkPmat (start (S r) - start r) (pm_cols A) (csr_rows (pm_csr A) (start r) (start (S r))).
(** get_sparse_matrix (space_time.py:68-70) on rank r *)
Definition get_sparse_rank (A : pmat) (start : nat -> nat) (r : nat) : res spmat :=
  get_sparse_matrix (mat_rank A start r).
(** PyPardisoSolver._check_A: the matrix has to be square and without empty rows *)
Definition check_A (M : spmat) : res unit :=
  if negb (Nat.eqb (sp_rows M) (sp_cols M)) then Err ValueError
  else if forallb (fun i => negb (Nat.eqb (nth (S i) (sp_indptr M) 0) (nth i (sp_indptr M) 0))) (seq 0 (sp_rows M)) then Ok tt
  else Err ValueError.
(** export and factorize (solve_1d.py:133-135 and 139-142, solve_2d.py:136-138 and
    142-145, solve_3d.py:199-201 and 205-208) on rank r; the factorisation itself
    succeeds once the matrix is accepted *)
Definition factorize_rank (A : pmat) (start : nat -> nat) (r : nat) : res spmat :=
  rbind (get_sparse_rank A start r) (fun M => rbind (check_A M) (fun _ => Ok M)).
(** the same on one process *)
Definition factorize_one (A : pmat) : res spmat :=
  rbind (get_sparse_matrix A) (fun M => rbind (check_A M) (fun _ => Ok M)).
