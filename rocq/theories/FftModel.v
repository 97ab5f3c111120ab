(** Model of puncturedfem/locfun/fft_deriv.py. Arithmetic is exact: numpy.fft.fft and ifft are the
    discrete Fourier sums that numpy documents, without rounding. *)
From Coq Require Import List ZArith Reals.
From Coquelicot Require Import Complex.
From Verif Require Import PyBase EdgeModel ContourModel CellModel.
Import List ListNotations.
Open Scope R_scope.

(** exp(it) *)
Definition expi (t : R) : C := (cos t, sin t).
(** f(0) + ... + f(n-1) *)
Fixpoint csum_n (f : nat -> C) (n : nat) : C := match n with O => RtoC 0 | S m => Cplus (csum_n f m) (f m) end.
(** numpy.fft.fft for a nonempty array: X[k] = sum_n x[n] exp(-2 pi i k n / N) *)
Definition fft (x : list C) : list C :=
  map (fun k => csum_n (fun n => Cmult (nth n x (RtoC 0)) (expi (- (2 * PI * INR k * INR n / INR (length x))))) (length x)) (seq 0 (length x)).
(** numpy.fft.ifft: x[n] = (1/N) sum_k X[k] exp(2 pi i k n / N) *)
Definition ifft (X : list C) : list C :=
  map (fun n => Cmult (RtoC (/ INR (length X))) (csum_n (fun k => Cmult (nth k X (RtoC 0)) (expi (2 * PI * INR k * INR n / INR (length X)))) (length X))) (seq 0 (length X)).
(** numpy.fft.fftfreq(N) for N > 0: [0, ..., (N-1)//2, -(N//2), ..., -1] / N *)
Definition fftfreq (N : nat) : list R :=
  map (fun m => IZR m / INR N)
    (map Z.of_nat (seq 0 ((N - 1) / 2 + 1)) ++ map (fun k => (Z.of_nat k - Z.of_nat (N / 2))%Z) (seq 0 (N / 2))).
(** u *= v elementwise for arrays of equal length *)
Definition cmul_arr (u v : list C) : list C := map (fun p => Cmult (fst p) (snd p)) (combine u v).
(** u[0] = a for a nonempty array *)
Definition set_first {A} (u : list A) (a : A) : list A := match u with [] => [] | _ :: u => a :: u end.

(** fft_deriv.py:25-51. numpy refuses a transform of no points; a zero length is a Python division *)
Definition fft_derivative (f : list R) (L : R) : res (list R) :=
  match f with
  | [] => Err ValueError
  | _ =>
      let N := length f in
      let omega := fft (map RtoC f) in
      let omega := cmul_arr omega (map (fun q => Cmult (Cmult Ci (RtoC (INR N))) (RtoC q)) (fftfreq N)) in
      if Req_EM_T L 0 then Err ZeroDivisionError
      else
        let omega := map (fun w => Cmult w (RtoC (2 * PI / L))) omega in
        Ok (map Re (ifft omega))
  end.
(** fft_deriv.py:54-83 *)
Definition fft_antiderivative (df : list R) (L : R) : res (list R) :=
  match df with
  | [] => Err ValueError
  | _ =>
      let N := length df in
      let omega := fft (map RtoC df) in
      let fft_idx := set_first (fftfreq N) 1 in
      let omega := cmul_arr omega (map (fun q => Cdiv (Copp Ci) (RtoC (INR N * q))) fft_idx) in
      let omega := map (fun w => Cmult w (RtoC (5 / 10 * L / PI))) omega in
      let omega := set_first omega (RtoC 0) in
      Ok (map Re (ifft omega))
  end.

(** fft_deriv.py:86-121 *)
Definition wtd_from_trace (c : cell) (f : list R) : res (list R) :=
  cell_fill c (fun k a b => fft_derivative (slice f a b) (2 * PI * INR (k_num k))).
(** fft_deriv.py:124-149 *)
Definition antiderivative_components (c : cell) (f : list R) : res (list R) :=
  cell_fill c (fun k a b => fft_antiderivative (slice f a b) (2 * PI * INR (k_num k))).
