(** Model of the synthetic data sets, /repo/skada/datasets/_samples_generator.py.
    The numpy generator, make_blobs, the Gaussian density, the Butterworth filter and the Fourier transform are oracles. Floats
    are reals. Rows of X are lists of reals (for signals: one list per channel). *)
From Coq Require Import String List ZArith QArith Bool Arith Lia Reals Lra.
From Verif Require Import Np Labels RVec DataModel PipeModel.
Import ListNotations.
Local Open Scope nat_scope.
Local Open Scope list_scope.

(** The label and shift arguments; the strings they may be. *)
Inductive label_kind := Binary | Multiclass | Regression | OtherLabel.
Inductive shift_kind := Covariate | TargetShift | Conditional | Subspace | OtherShift.
(** mu_regression and sigma_regression: both None, both scalar, or a vector and a matrix. Other combinations are not modelled. *)
Inductive reg_params := RDefault | RScalar (mu sigma : R) | RMatrix (mu : list R) (sigma : list (list R)).
(** noise: None, a number, or a sequence. *)
Inductive noise_arg := NNone | NReal (scale : R) | NSeq (scales : list R).

(** Python's int() of a float: truncation. *)
Definition py_int (x : R) : Z := if Rle_dec 0 x then Int_part x else (- Int_part (- x))%Z.

(** x.dot(Sigma) + mu for a row of two entries. *)
Definition affine (s11 s12 s21 s22 m1 m2 : R) (x : list R) : list R :=
  [nth 0 x 0 * s11 + nth 1 x 0 * s21 + m1; nth 0 x 0 * s12 + nth 1 x 0 * s22 + m2]%R.

Definition lab (k : nat) : val := VNum (inject_Z (Z.of_nat k)).

Section Generators.
  Context {Gen : Type}.
  (** rng.rand(n, 1), rng.randn(n, 2). *)
  Variable rand : nat -> Gen -> list R * Gen.
  Variable randn : nat -> Gen -> list (list R) * Gen.
  (** rng.choice(n, size, replace=False, p): the positions; ValueError if it cannot. *)
  Variable choice : nat -> nat -> option (list R) -> Gen -> res (list nat * Gen).
  (** rng.normal(scale=s, size=(n, 2)); ValueError for a negative scale. *)
  Variable normal : R -> nat -> nat -> Gen -> res (list (list R) * Gen).
  (** multivariate_normal(mu, sigma).pdf in dimension two and one, times the scaling constant. *)
  Variable pdf2 : option (list R * list (list R)) -> list R -> val.
  Variable pdf1 : option (R * R) -> R -> val.

  (** A negative size is a ValueError. *)
  Definition choice_z (n : nat) (size : Z) (p : option (list R)) (g : Gen) : res (list nat * Gen) :=
    if (size <? 0)%Z then Err ValueError else choice n (Z.to_nat size) p g.

  (** _generate_unif_circle, lines 19-23. *)
  Definition unif_circle (n : nat) (g : Gen) : list (list R) * Gen :=
    let '(a, g) := rand n g in
    let '(r, g) := rand n g in
    (map2 (fun a r => [sqrt r * cos (a * 2 * PI); sqrt r * sin (a * 2 * PI)]%R) a r, g).

  (** _generate_data_2d_classif, lines 26-113. Numeric labels are exact, so astype(int) is the identity. A density in dimension
      one applied to rows of two entries is a ValueError. *)
  Definition classif (n : nat) (params : reg_params) (label : label_kind) (g : Gen) : res (list (list R) * (ydt * list val) * Gen) :=
    let n2 := n in
    let n1 := n2 * 4 in
    let '(x1, g) := unif_circle n1 g in
    let '(x21, g) := randn n2 g in
    let '(x22, g) := randn n2 g in
    let '(x23, g) := randn n2 g in
    let '(x24, g) := randn n2 g in
    let x := map (affine 2 (-1 / 2) (-1 / 2) 2 2 2) x1 ++ map (affine (15 / 100) 0 0 (3 / 10) (-3 / 2) 3) x21
             ++ map (affine (2 / 10) (-1 / 10) (-1 / 10) (2 / 10) (-1 / 2) 1) x22
             ++ map (affine (17 / 100) (-5 / 100) (-5 / 100) (17 / 100) 1 (-4 / 10)) x23
             ++ map (affine (3 / 10) 0 0 (15 / 100) 3 (-1)) x24 in
    y <- match label with
         | Binary => Ok (YInt, repeat (lab 0) n1 ++ repeat (lab 1) (4 * n2))
         | Multiclass => Ok (YInt, fold_left (fun y i => y ++ repeat (lab (i + 1)) n2) (seq 0 4) (repeat (lab 0) n1))
         | Regression =>
             match params with
             | RDefault => Ok (YFloat, map (pdf2 None) x)
             | RMatrix mu sigma => Ok (YFloat, map (pdf2 (Some (mu, sigma))) x)
             | RScalar _ _ => Err ValueError
             end
         | OtherLabel => Err ValueError
         end ;;
    Ok (x, y, g).

  (** _generate_data_2d_classif_subspace, lines 116-194. A density in dimension two applied to a vector of 4 n numbers is a
      ValueError (for 4 n <> 2). *)
  Definition classif_subspace (n : nat) (params : reg_params) (label : label_kind) (g : Gen) : res (list (list R) * (ydt * list val) * Gen) :=
    let n2 := n in
    let n1 := n2 * 2 in
    let '(x1, g) := randn n1 g in
    let '(x21, g) := randn n2 g in
    let '(x22, g) := randn n2 g in
    let x := map (affine (1 / 2) 0 0 (1 / 2) (-1) 1) x1 ++ map (affine (1 / 10) 0 0 (1 / 10) (3 / 2) (1 / 2)) x21
             ++ map (affine (2 / 10) 0 0 (2 / 10) (-1 / 2) (-3 / 2)) x22 in
    y <- match label with
         | Binary => Ok (YInt, repeat (lab 0) n1 ++ repeat (lab 1) (2 * n2))
         | Multiclass =>
             let k := 4 in
             Ok (YInt, fold_left (fun y i => y ++ repeat (lab (i + 1)) (n1 / k)) (seq 0 k) (repeat (lab 0) (n1 + n1 mod k)))
         | Regression =>
             match params with
             | RDefault => Ok (YFloat, map (fun r => pdf1 None ((nth 0 r 0 + nth 1 r 0) / 2)%R) x)
             | RScalar mu sigma => Ok (YFloat, map (fun r => pdf1 (Some (mu, sigma)) ((nth 0 r 0 + nth 1 r 0) / 2)%R) x)
             | RMatrix _ _ => Err ValueError
             end
         | OtherLabel => Err ValueError
         end ;;
    Ok (x, y, g).

  (** X += rng.normal(scale=s, size=X.shape). *)
  Definition add_noise (d : nat) (s : R) (X : list (list R)) (g : Gen) : res (list (list R) * Gen) :=
    r <- normal s (length X) d g ;; Ok (map2 vadd X (fst r), snd r).
  (** noise[i]. *)
  Definition seq_item (l : list R) (i : nat) : res R := match nth_error l i with Some s => Ok s | None => Err IndexError end.
  (** Lines 350-355 and 580-585: noise on both domains. *)
  Definition noisy (d : nat) (noise : noise_arg) (Xs Xt : list (list R)) (g : Gen) : res (list (list R) * list (list R) * Gen) :=
    match noise with
    | NNone => Ok (Xs, Xt, g)
    | NReal s => a <- add_noise d s Xs g ;; b <- add_noise d s Xt (snd a) ;; Ok (fst a, fst b, snd b)
    | NSeq l =>
        s0 <- seq_item l 0 ;; a <- add_noise d s0 Xs g ;;
        s1 <- seq_item l 1 ;; b <- add_noise d s1 Xt (snd a) ;; Ok (fst a, fst b, snd b)
    end.

  (** Lines 587-592; a constant feature divides by zero (nan or inf in numpy; here x / 0). *)
  Definition col_mean (X : list (list R)) (j : nat) : R := mean (map (fun r => nth j r 0%R) X).
  Definition col_std (X : list (list R)) (j : nat) : R := sqrt (mean (map (fun r => (nth j r 0 - col_mean X j) * (nth j r 0 - col_mean X j))%R X)).
  Definition standardise (X : list (list R)) (r : list R) : list R := map (fun j => (nth j r 0 - col_mean X j) / col_std X j)%R (seq 0 (length r)).

  (** X[isel], y[isel]. *)
  Definition take_both (isel : list nat) (X : list (list R)) (y : ydt * list val) : res (list (list R) * (ydt * list val)) :=
    X' <- np_take isel X ;; y' <- np_take isel (snd y) ;; Ok (X', (fst y, y')).

  (** Lines 496-578: the target domain (and the source domain, which 'subspace' replaces). *)
  Definition shifted (n_s n_t : nat) (shift : shift_kind) (label : label_kind) (ratio mean sigma gamma : R) (center_cov_shift : list R) (params : reg_params) (g : Gen)
    : res (list (list R) * (ydt * list val) * list (list R) * (ydt * list val) * Gen) :=
    s <- classif n_s params label g ;;
    let '(Xs, ys, g) := s in
    match shift with
    | Covariate =>
        t <- classif (n_t * 100) params label g ;;
        let '(Xt, yt, g) := t in
        let w := map (fun r => exp (- gamma * vsum (map2 (fun a c => (a - c) * (a - c)) r center_cov_shift)))%R Xt in
        let w := map (fun a => a / vsum w)%R w in
        c <- choice (length w) (8 * n_t) (Some w) g ;;
        p <- take_both (fst c) Xt yt ;;
        Ok (Xs, ys, fst p, snd p, snd c)
    | TargetShift =>
        let n_temp := n_t * 3 in
        t <- classif n_temp params label g ;;
        let '(Xt, yt, g) := t in
        let n_samples1 := py_int (INR (8 * n_t) * ratio) in
        let n_samples2 := (Z.of_nat (8 * n_t) - n_samples1)%Z in
        c1 <- choice_z (8 * n_temp / 2) n_samples1 None g ;;
        c2 <- choice_z (8 * n_temp / 2) n_samples2 None (snd c1) ;;
        let isel := fst c1 ++ map (fun i => i + 8 * n_temp / 2) (fst c2) in
        p <- take_both isel Xt yt ;;
        Ok (Xs, ys, fst p, snd p, snd c2)
    | Conditional =>
        t <- classif n_t params label g ;;
        let '(Xt, yt, g) := t in
        Ok (Xs, ys, map (map (fun a => a * sigma + mean)%R) Xt, yt, g)
    | Subspace =>
        s <- classif_subspace n_s params label g ;;
        let '(Xs, ys, g) := s in
        t <- classif_subspace n_t params label g ;;
        let '(Xt, yt, g) := t in
        Ok (Xs, ys, map (map (fun a => a * -1)%R) Xt, yt, g)
    | OtherShift => Err ValueError
    end.

  (** make_shifted_datasets, lines 379-614, up to the construction of the data set object. [center] is not used. *)
  Definition make_shifted (n_s n_t : nat) (shift : shift_kind) (noise : noise_arg) (label : label_kind) (ratio mean sigma gamma : R) (center_cov_shift : list R) (params : reg_params)
      (standardize : bool) (g : Gen) : res (@dataset (list R)) :=
    d <- shifted n_s n_t shift label ratio mean sigma gamma center_cov_shift params g ;;
    let '(Xs, ys, Xt, yt, g) := d in
    n <- noisy 2 noise Xs Xt g ;;
    let '(Xs, Xt, _) := n in
    let X := Xs ++ Xt in
    let Xs' := if standardize then map (standardise X) Xs else Xs in
    let Xt' := if standardize then map (standardise X) Xt else Xt in
    make_dataset [C3 (mkDom Xs' (Some ys)) (Some "s"%string); C3 (mkDom Xt' (Some yt)) (Some "t"%string)].
  (** The last lines of every function: pack with return_X_y. *)
  Definition packed_xy (s : @dataset (list R)) (sources targets : list string) (return_X_y : bool) : res packed :=
    pack s sources targets false (Some return_X_y) RTAuto None None.

  (** make_shifted_blobs, lines 272-376; [blobs]: the result of make_blobs. [shift]: a number or one value per feature; other
      shapes are a ValueError (broadcasting of a one-element array is not modelled). *)
  Definition shift_row (shift : R + list R) (r : list R) : res (list R) :=
    match shift with inl s => Ok (map (fun a => a + s)%R r) | inr l => np_map2 Rplus r l end.
  Definition make_blobs_shifted (d : nat) (blobs : list (list R) * list val) (shift : R + list R) (noise : noise_arg) (g : Gen) : res (@dataset (list R)) :=
    let '(Xs, ys) := blobs in
    Xt <- mapM (shift_row shift) Xs ;;
    n <- noisy d noise Xs Xt g ;;
    let '(Xs, Xt, _) := n in
    make_dataset [C3 (mkDom Xs (Some (YInt, ys))) (Some "s"%string); C3 (mkDom Xt (Some (YInt, ys))) (Some "t"%string)].

  (** *** moons *)
  (** rng.multivariate_normal(center, 0.01 I, size=n). *)
  Variable cluster : list R -> nat -> Gen -> list (list R) * Gen.
  (** np.linspace(0, pi, 100)[i]. *)
  Definition angle (i : nat) : R := (INR i * (PI / 99))%R.
  Definition outer (i : nat) : list R := [cos (angle i); sin (angle i)].
  Definition inner (i : nat) : list R := [1 - cos (angle i); 1 - sin (angle i) - 1 / 2]%R.
  (** _generate_data_from_moons, lines 197-228; a negative index counts from the end. *)
  Definition moons (n : nat) (index : R) (g : Gen) : res (list (list R) * (ydt * list val) * Gen) :=
    i <- py_index 100 (py_int (index * 100)) ;;
    let '(a, g) := cluster (outer i) n g in
    let '(b, g) := cluster (inner i) n g in
    Ok (a ++ b, (YFloat, repeat (lab 0) n ++ repeat (lab 1) n), g).
  Definition moon_noise (noise : noise_arg) (which : nat) (X : list (list R)) (g : Gen) : res (list (list R) * Gen) :=
    match noise with
    | NNone => Ok (X, g)
    | NReal s => add_noise 2 s X g
    | NSeq l => s <- seq_item l which ;; add_noise 2 s X g
    end.
  (** Lines 687-710 and 712-735: the loops over the positions; [prefix ^ i] are the names. *)
  Fixpoint moon_domains (n : nat) (noise : noise_arg) (which : nat) (named : list (R * string)) (s : @dataset (list R)) (g : Gen) : res (@dataset (list R) * Gen) :=
    match named with
    | [] => Ok (s, g)
    | (pos, name) :: rest =>
        m <- moons n pos g ;;
        let '(X, y, g) := m in
        X' <- moon_noise noise which X g ;;
        s' <- add_domain s (mkDom (fst X') (Some y)) (Some name) ;;
        moon_domains n noise which rest s' (snd X')
    end.
  Definition moon_names (prefix : string) (pos : R + list R) : list (R * string) :=
    match pos with
    | inl p => [(p, prefix)]
    | inr l => map (fun ip => (snd ip, String.append prefix (string_of_nat (fst ip)))) (combine (seq 0 (length l)) l)
    end.
  (** make_dataset_from_moons_distribution, lines 617-748: the data set and the names packed as sources and targets. *)
  Definition make_moons (n_s n_t : nat) (noise : noise_arg) (pos_source pos_target : R + list R) (g : Gen) : res (@dataset (list R) * list string * list string) :=
    a <- moon_domains n_s noise 0 (moon_names "s" pos_source) empty_ds g ;;
    b <- moon_domains n_t noise 1 (moon_names "t" pos_target) (fst a) (snd a) ;;
    Ok (fst b, map snd (moon_names "s" pos_source), map snd (moon_names "t" pos_target)).

  (** *** signals *)
  (** rng.uniform(0.5, 1, n); rng.normal(0, 1, (n, channels, size)); rng.normal(f, sigma); butter and sosfilt with fs = 100 (the
      filter may be refused); rfft and irfft of a vector. *)
  Variable uniform_half : nat -> Gen -> list R * Gen.
  Variable noise3 : nat -> nat -> nat -> Gen -> list (list (list R)) * Gen.
  Variable normal1 : R -> R -> Gen -> R * Gen.
  Variable bandpass : R -> R -> list (list R) -> res (list (list R)).
  Variable rfft irfft : list R -> list R.
  (** X[:, j] and X[:, j] = v for a list of rows. *)
  Definition get_col (j : nat) (X : list (list R)) : list R := map (fun r => nth j r 0%R) X.
  Definition set_col (j : nat) (v : list R) (X : list (list R)) : list (list R) := map2 (fun a r => update j a r) v X.
  (** Lines 260-262: the loop over the channels. *)
  Definition weigh (weights : list R) (X : list (list R)) : list (list R) :=
    fold_left (fun X jw => set_col (fst jw) (irfft (vscale (snd jw) (rfft (get_col (fst jw) X)))) X) (combine (seq 0 (length weights)) weights) X.
  (** Lines 243-263: one sample. *)
  Definition one_signal (freq band_size sigma_freq : R) (weights : list R) (x : list (list R)) (g : Gen) : res (list (list R) * Gen) :=
    let '(f, g) := normal1 freq (sigma_freq * band_size) g in
    let f := (f + 1 / 10 ^ 5)%R in
    let f := if Rltb f 0 then (- f)%R else f in
    X <- bandpass f (f + band_size) x ;;
    Ok (weigh weights X, g).
  Fixpoint signals (freq band_size sigma_freq : R) (weights : list R) (xs : list (list (list R))) (g : Gen) : res (list (list (list R)) * Gen) :=
    match xs with
    | [] => Ok ([], g)
    | x :: xs => a <- one_signal freq band_size sigma_freq weights x g ;; b <- signals freq band_size sigma_freq weights xs (snd a) ;; Ok (fst a :: fst b, snd b)
    end.
  (** Lines 239-263: the loop over the frequencies of a class; signals are added up. *)
  Fixpoint class_signals (n channels size : nat) (freqs : list R) (band_size sigma_freq : R) (X : list (list (list R))) (g : Gen) : res (list (list (list R)) * Gen) :=
    match freqs with
    | [] => Ok (X, g)
    | f :: fs =>
        let '(w, g) := uniform_half channels g in
        let '(xr, g) := noise3 n channels size g in
        a <- signals f band_size sigma_freq w xr g ;;
        class_signals n channels size fs band_size sigma_freq (map2 (map2 vadd) X (fst a)) (snd a)
    end.
  (** _generate_signal_with_peak_frequency, lines 231-268; np.concatenate of no class is a ValueError. *)
  Fixpoint all_signals (n channels size : nat) (freqs : list (list R)) (k : nat) (band_size sigma_freq : R) (g : Gen) : res (list (list (list R)) * list val * Gen) :=
    match freqs with
    | [] => Ok ([], [], g)
    | f :: fs =>
        a <- class_signals n channels size f band_size sigma_freq (repeat (repeat (repeat 0%R size) channels) n) g ;;
        b <- all_signals n channels size fs (S k) band_size sigma_freq (snd a) ;;
        let '(X, y, g) := b in
        Ok (fst a ++ X, repeat (lab k) n ++ y, g)
    end.
  Definition peak_signals (n channels size : nat) (freqs : list (list R)) (band_size sigma_freq : R) (g : Gen) : res (list (list (list R)) * list val * Gen) :=
    match freqs with [] => Err ValueError | _ => all_signals n channels size freqs 0 band_size sigma_freq g end.
  (** Cutting the chosen numbers into rows of [n_frequencies] (choice with a shape). *)
  Fixpoint rows_of (m : nat) (k : nat) (l : list nat) : list (list R) :=
    match k with 0 => [] | S k' => map INR (firstn m l) :: rows_of m k' (skipn m l) end.
  (** make_variable_frequency_dataset, lines 751-868, without the noise (as above) and before the construction of the data set. *)
  Definition make_frequencies (n_s n_t channels n_frequencies n_classes : nat) (delta_f band_size sigma_freq : R) (g : Gen)
    : res (list (list (list R)) * list val * (list (list (list R)) * list val)) :=
    c <- choice 15 (n_classes * n_frequencies) None g ;;
    let freqs := rows_of n_frequencies n_classes (fst c) in
    a <- peak_signals n_s channels 3000 freqs band_size sigma_freq (snd c) ;;
    let '(Xs, ys, g) := a in
    b <- peak_signals n_t channels 3000 (map (map (fun f => f + delta_f)%R) freqs) band_size sigma_freq g ;;
    let '(Xt, yt, _) := b in
    Ok (Xs, ys, (Xt, yt)).
End Generators.
