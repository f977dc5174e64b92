(** Calls with all their documented arguments, for the functions that take an argument and never read it. *)
From Coq Require Import Reals ZArith List String Bool.
From Verif Require Import Np Labels UtilsModel DataModel MapModel GenModel.
Import ListNotations.

(** make_shifted_datasets, skada/datasets/_samples_generator.py lines 379-400: the arguments in the order of the signature; the body is [make_shifted].
    The two regression arguments are one ([params]) and regression_scaling_constant is part of the densities, as there. *)
Definition make_shifted_call {Gen} rand randn choice normal pdf2 pdf1 (n_samples_source n_samples_target : nat) (shift : shift_kind) (noise : noise_arg) (label : label_kind)
    (ratio mean sigma : R) (params : reg_params) (gamma : R) (center center_cov_shift : list R) (standardize : bool) (g : Gen) : res (@dataset (list R)) :=
  make_shifted rand randn choice normal pdf2 pdf1 n_samples_source n_samples_target shift noise label ratio mean sigma gamma center_cov_shift params standardize g.

(** MultiLinearMongeAlignmentAdapter.transform, skada/_mapping.py lines 687-700, of an object made with [test_time] (lines 598-602). *)
Definition mlm_transform_call (test_time : bool) (mappings : dict Z (list val -> list val)) (X : arr) (sda : sd_arg) : res arr := mlm_transform mappings X sda.

(** make_variable_frequency_dataset, lines 740-754: sigma_ch between sigma_freq and the noise, which is not modelled; the body is [make_frequencies]. *)
Definition make_frequencies_call {Gen} choice uniform_half noise3 normal1 bandpass rfft irfft (n_samples_source n_samples_target n_channels n_frequencies n_classes : nat)
    (delta_f band_size sigma_freq sigma_ch : R) (g : Gen) :=
  make_frequencies choice uniform_half noise3 normal1 bandpass rfft irfft n_samples_source n_samples_target n_channels n_frequencies n_classes delta_f band_size sigma_freq g.
