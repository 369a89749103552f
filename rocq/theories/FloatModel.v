(** FloatModel.v -- the sample times of measured_errors in double precision
    (/repo/src/dxss/space_time.py:117, 224, 1480, 1521-1522).  Doubles are the
    binary64 numbers of Coq.Floats.SpecFloat, which computes with integers and
    assumes nothing. *)
From Coq Require Import ZArith List Bool.
From Coq Require Import Floats.SpecFloat.
Import ListNotations.

Definition fadd : spec_float -> spec_float -> spec_float := SFadd 53 1024.
Definition fsub : spec_float -> spec_float -> spec_float := SFsub 53 1024.
Definition fmul : spec_float -> spec_float -> spec_float := SFmul 53 1024.
Definition fdiv : spec_float -> spec_float -> spec_float := SFdiv 53 1024.
Definition fle : spec_float -> spec_float -> bool := SFleb.
(** an integer as a double *)
Definition fz (m : Z) : spec_float := binary_normalize 53 1024 m 0 false.
Definition fn (n : nat) : spec_float := fz (Z.of_nat n).

(** self.delta_t = self.T / self.N (space_time.py:117) *)
Definition f_dt (T : spec_float) (N : nat) : spec_float := fdiv T (fn N).
(** np.linspace(0, T, 105): arange(105) * step + 0 with step = T / 104, the
    last entry replaced by T *)
Definition f_samples (T : spec_float) : list spec_float :=
  map (fun i => fadd (fmul (fn i) (fdiv (fsub T (fn 0)) (fn 104))) (fn 0)) (seq 0 104) ++ [T].
(** the test t_sample >= t_n and t_sample <= (t_n + delta_t) with t_n = n * delta_t *)
Definition f_in_slab (T : spec_float) (N n : nat) (t : spec_float) : bool :=
  let dt := f_dt T N in let tn := fmul (fn n) dt in fle tn t && fle t (fadd tn dt).
Definition f_evaluated (T : spec_float) (N : nat) (t : spec_float) : bool :=
  existsb (fun n => f_in_slab T N n t) (seq 0 N).
(** positions of the sample times that no slab evaluates *)
Definition f_missed (T : spec_float) (N : nat) : list nat :=
  map fst (filter (fun '(_, t) => negb (f_evaluated T N t)) (combine (seq 0 105) (f_samples T))).
