# Formal model of StaticMapping: design

The code under study is C++ (point-cloud SLAM). Nothing of it is executed here; the
Coq files transcribe the functions named in `properties.jsonl` by hand, function by
function, with the file and line numbers of the original in the comment above every
definition.

## Conventions

* `Outcome.v`: every function that can fail returns an `outcome`: `Ok v`, `Abort`
  (a failed glog `CHECK`/`LOG(FATAL)`: the process dies), `Throw` (a C++ exception) or
  `UB` (undefined behaviour according to the C++ standard). They are never identified
  with each other or with a default value.
* Integers are `Z`; where the C++ type is fixed width and the width matters, the casts
  are explicit (`mod 2^32`, `mod 2^64`, or a range test giving `UB` for signed overflow).
* `float` values whose NaN/infinity behaviour matters are IEEE binary32 values from
  `Coq.Floats.SpecFloat` (computable, no axioms). Where only exact arithmetic matters
  (interpolation, centroids, tilings) rationals or integers are used and the comment says
  that rounding is not modelled.
* Library behaviour that the C++ standard leaves open (hash-map iteration order,
  `nth_element`, random numbers, thread schedules) is universally quantified.
* Threads: small-step interleaving semantics at the granularity of the mutex-protected
  sections and of the individual unprotected shared reads.
* Files: `XModel.v` definitions, `XSpec.v` independent specification, `XProofs.v`
  lemmas, `XProps.v` final theorems only (closed by `exact`), each followed by
  `Print Assumptions` and by concrete examples that satisfy the hypotheses.

## Trusted base

* The Coq 8.16.1 kernel.
* The hand transcription from C++ to Gallina (each definition cites its source lines and
  states its simplifications).
* No axioms of our own; the output of `Print Assumptions` is summarised in the section
  "Assumptions". No kernel check is switched off, no functors or module types are used.
* The semantics of the C++ constructs and library functions as written down in the model
  files (outcomes of failed checks, exceptions, undefined behaviour; interleaving of
  threads under sequential consistency).

## Assumptions (`Print Assumptions` of every theorem in the manifest)

683 theorems. 507 of them print `Closed under the global context` (no axioms at all). The others:

* `C154_residuals`: `ClassicalDedekindReals.sig_not_dec`, `ClassicalDedekindReals.sig_forall_dec`, `FunctionalExtensionality.functional_extensionality_dep`, `Classical_Prop.classic` (axioms of the standard library's real numbers).
* `C154_right`: `ClassicalDedekindReals.sig_not_dec`, `ClassicalDedekindReals.sig_forall_dec`, `FunctionalExtensionality.functional_extensionality_dep`, `Classical_Prop.classic` (axioms of the standard library's real numbers).
* `C154_direction`: `ClassicalDedekindReals.sig_not_dec`, `ClassicalDedekindReals.sig_forall_dec`, `FunctionalExtensionality.functional_extensionality_dep`, `Classical_Prop.classic` (axioms of the standard library's real numbers).
* `C154_direction_refuted`: `ClassicalDedekindReals.sig_not_dec`, `ClassicalDedekindReals.sig_forall_dec`, `FunctionalExtensionality.functional_extensionality_dep`, `Classical_Prop.classic` (axioms of the standard library's real numbers).
* `C154_level`: `ClassicalDedekindReals.sig_not_dec`, `ClassicalDedekindReals.sig_forall_dec`, `FunctionalExtensionality.functional_extensionality_dep`, `Classical_Prop.classic` (axioms of the standard library's real numbers).
* `C154_failures`: `ClassicalDedekindReals.sig_not_dec`, `ClassicalDedekindReals.sig_forall_dec`, `FunctionalExtensionality.functional_extensionality_dep`, `Classical_Prop.classic` (axioms of the standard library's real numbers).
* `C154_result`: `ClassicalDedekindReals.sig_not_dec`, `ClassicalDedekindReals.sig_forall_dec`, `FunctionalExtensionality.functional_extensionality_dep`, `Classical_Prop.classic` (axioms of the standard library's real numbers).
* `C151_path`: `ClassicalDedekindReals.sig_not_dec`, `ClassicalDedekindReals.sig_forall_dec`, `FunctionalExtensionality.functional_extensionality_dep` (axioms of the standard library's real numbers).
* `C151_rigid`: `ClassicalDedekindReals.sig_not_dec`, `ClassicalDedekindReals.sig_forall_dec`, `FunctionalExtensionality.functional_extensionality_dep` (axioms of the standard library's real numbers).
* `C151_normal`: `ClassicalDedekindReals.sig_not_dec`, `ClassicalDedekindReals.sig_forall_dec`, `FunctionalExtensionality.functional_extensionality_dep` (axioms of the standard library's real numbers).
* `C151_plane_refuted`: `ClassicalDedekindReals.sig_not_dec`, `ClassicalDedekindReals.sig_forall_dec`, `FunctionalExtensionality.functional_extensionality_dep` (axioms of the standard library's real numbers).
* `C151_length_refuted`: `ClassicalDedekindReals.sig_not_dec`, `ClassicalDedekindReals.sig_forall_dec`, `FunctionalExtensionality.functional_extensionality_dep` (axioms of the standard library's real numbers).
* `C151_smooth_refuted`: `ClassicalDedekindReals.sig_not_dec`, `ClassicalDedekindReals.sig_forall_dec`, `FunctionalExtensionality.functional_extensionality_dep` (axioms of the standard library's real numbers).
* `C151_gps_line`: `ClassicalDedekindReals.sig_not_dec`, `ClassicalDedekindReals.sig_forall_dec`, `FunctionalExtensionality.functional_extensionality_dep` (axioms of the standard library's real numbers).
* `C151_gps_along`: `ClassicalDedekindReals.sig_not_dec`, `ClassicalDedekindReals.sig_forall_dec`, `FunctionalExtensionality.functional_extensionality_dep` (axioms of the standard library's real numbers).
* `C151_odom_line`: `ClassicalDedekindReals.sig_not_dec`, `ClassicalDedekindReals.sig_forall_dec`, `FunctionalExtensionality.functional_extensionality_dep` (axioms of the standard library's real numbers).
* `C151_odom_blind`: `ClassicalDedekindReals.sig_not_dec`, `ClassicalDedekindReals.sig_forall_dec`, `FunctionalExtensionality.functional_extensionality_dep` (axioms of the standard library's real numbers).
* `C151_odom_straight`: `ClassicalDedekindReals.sig_not_dec`, `ClassicalDedekindReals.sig_forall_dec`, `FunctionalExtensionality.functional_extensionality_dep` (axioms of the standard library's real numbers).
* `C128_threads`: `ClassicalDedekindReals.sig_not_dec`, `ClassicalDedekindReals.sig_forall_dec`, `FunctionalExtensionality.functional_extensionality_dep` (axioms of the standard library's real numbers).
* `C128_shown`: `ClassicalDedekindReals.sig_not_dec`, `ClassicalDedekindReals.sig_forall_dec`, `FunctionalExtensionality.functional_extensionality_dep` (axioms of the standard library's real numbers).
* `C128_local_cloud_has_current`: `ClassicalDedekindReals.sig_not_dec`, `ClassicalDedekindReals.sig_forall_dec`, `FunctionalExtensionality.functional_extensionality_dep` (axioms of the standard library's real numbers).
* `C128_submaps_in_order`: `ClassicalDedekindReals.sig_not_dec`, `ClassicalDedekindReals.sig_forall_dec`, `FunctionalExtensionality.functional_extensionality_dep` (axioms of the standard library's real numbers).
* `C128_last_path`: `ClassicalDedekindReals.sig_not_dec`, `ClassicalDedekindReals.sig_forall_dec`, `FunctionalExtensionality.functional_extensionality_dep` (axioms of the standard library's real numbers).
* `C128_crashes`: `ClassicalDedekindReals.sig_not_dec`, `ClassicalDedekindReals.sig_forall_dec`, `FunctionalExtensionality.functional_extensionality_dep` (axioms of the standard library's real numbers).
* `C128_read_under_construction`: `ClassicalDedekindReals.sig_not_dec`, `ClassicalDedekindReals.sig_forall_dec`, `FunctionalExtensionality.functional_extensionality_dep` (axioms of the standard library's real numbers).
* `C146_no_odometry`: `ClassicalDedekindReals.sig_forall_dec` (axioms of the standard library's real numbers).
* `C146_ctrv_ignores_odometry`: `ClassicalDedekindReals.sig_forall_dec` (axioms of the standard library's real numbers).
* `C146_second_message_undefined`: `ClassicalDedekindReals.sig_forall_dec` (axioms of the standard library's real numbers).
* `C146_stands_still`: `ClassicalDedekindReals.sig_forall_dec`, `FunctionalExtensionality.functional_extensionality_dep` (axioms of the standard library's real numbers).
* `C146_kept_until_pose`: `ClassicalDedekindReals.sig_forall_dec` (axioms of the standard library's real numbers).
* `C146_gravity_needs_two_poses`: `ClassicalDedekindReals.sig_forall_dec` (axioms of the standard library's real numbers).
* `C146_gravity_ctrv`: `ClassicalDedekindReals.sig_forall_dec` (axioms of the standard library's real numbers).
* `C146_rough_velocity`: `ClassicalDedekindReals.sig_forall_dec` (axioms of the standard library's real numbers).
* `C146_follows_motion_refuted`: `ClassicalDedekindReals.sig_forall_dec`, `FunctionalExtensionality.functional_extensionality_dep` (axioms of the standard library's real numbers).
* `C153_estimate`: `ClassicalDedekindReals.sig_not_dec`, `ClassicalDedekindReals.sig_forall_dec`, `FunctionalExtensionality.functional_extensionality_dep`, `Classical_Prop.classic` (axioms of the standard library's real numbers).
* `C153_match`: `ClassicalDedekindReals.sig_not_dec`, `ClassicalDedekindReals.sig_forall_dec`, `FunctionalExtensionality.functional_extensionality_dep`, `Classical_Prop.classic` (axioms of the standard library's real numbers).
* `C153_total`: `ClassicalDedekindReals.sig_not_dec`, `ClassicalDedekindReals.sig_forall_dec`, `FunctionalExtensionality.functional_extensionality_dep`, `Classical_Prop.classic` (axioms of the standard library's real numbers).
* `C153_row`: `ClassicalDedekindReals.sig_not_dec`, `ClassicalDedekindReals.sig_forall_dec`, `FunctionalExtensionality.functional_extensionality_dep` (axioms of the standard library's real numbers).
* `C153_step`: `ClassicalDedekindReals.sig_not_dec`, `ClassicalDedekindReals.sig_forall_dec`, `FunctionalExtensionality.functional_extensionality_dep` (axioms of the standard library's real numbers).
* `C153_turn`: `ClassicalDedekindReals.sig_not_dec`, `ClassicalDedekindReals.sig_forall_dec`, `FunctionalExtensionality.functional_extensionality_dep`, `Classical_Prop.classic` (axioms of the standard library's real numbers).
* `C153_average_refuted`: `ClassicalDedekindReals.sig_not_dec`, `ClassicalDedekindReals.sig_forall_dec`, `FunctionalExtensionality.functional_extensionality_dep`, `Classical_Prop.classic` (axioms of the standard library's real numbers).
* `C149_graph`: `ClassicalDedekindReals.sig_forall_dec`, `FunctionalExtensionality.functional_extensionality_dep` (axioms of the standard library's real numbers).
* `C149_all_measured`: `ClassicalDedekindReals.sig_forall_dec`, `FunctionalExtensionality.functional_extensionality_dep` (axioms of the standard library's real numbers).
* `C149_time`: `ClassicalDedekindReals.sig_forall_dec`, `FunctionalExtensionality.functional_extensionality_dep` (axioms of the standard library's real numbers).
* `C149_failures`: `ClassicalDedekindReals.sig_forall_dec`, `FunctionalExtensionality.functional_extensionality_dep` (axioms of the standard library's real numbers).
* `C149_velocity`: `ClassicalDedekindReals.sig_forall_dec`, `FunctionalExtensionality.functional_extensionality_dep` (axioms of the standard library's real numbers).
* `C149_order_refuted`: `ClassicalDedekindReals.sig_forall_dec`, `FunctionalExtensionality.functional_extensionality_dep` (axioms of the standard library's real numbers).
* `C149_rest_refuted`: `ClassicalDedekindReals.sig_forall_dec`, `FunctionalExtensionality.functional_extensionality_dep` (axioms of the standard library's real numbers).
* `C112_observe`: `ClassicalDedekindReals.sig_not_dec`, `ClassicalDedekindReals.sig_forall_dec`, `FunctionalExtensionality.functional_extensionality_dep` (axioms of the standard library's real numbers).
* `C112_always_upright`: `ClassicalDedekindReals.sig_not_dec`, `ClassicalDedekindReals.sig_forall_dec`, `FunctionalExtensionality.functional_extensionality_dep` (axioms of the standard library's real numbers).
* `C112_failures`: `ClassicalDedekindReals.sig_not_dec`, `ClassicalDedekindReals.sig_forall_dec`, `FunctionalExtensionality.functional_extensionality_dep` (axioms of the standard library's real numbers).
* `C112_first_message`: `ClassicalDedekindReals.sig_not_dec`, `ClassicalDedekindReals.sig_forall_dec`, `FunctionalExtensionality.functional_extensionality_dep` (axioms of the standard library's real numbers).
* `C113_one_axis`: `ClassicalDedekindReals.sig_not_dec`, `ClassicalDedekindReals.sig_forall_dec`, `FunctionalExtensionality.functional_extensionality_dep` (axioms of the standard library's real numbers).
* `C113_steps`: `ClassicalDedekindReals.sig_not_dec`, `ClassicalDedekindReals.sig_forall_dec`, `FunctionalExtensionality.functional_extensionality_dep` (axioms of the standard library's real numbers).
* `C113_steps_refuted`: `ClassicalDedekindReals.sig_not_dec`, `ClassicalDedekindReals.sig_forall_dec`, `FunctionalExtensionality.functional_extensionality_dep` (axioms of the standard library's real numbers).
* `C144_least_squares`: `ClassicalDedekindReals.sig_forall_dec`, `FunctionalExtensionality.functional_extensionality_dep` (axioms of the standard library's real numbers).
* `C144_ends`: `ClassicalDedekindReals.sig_forall_dec`, `FunctionalExtensionality.functional_extensionality_dep` (axioms of the standard library's real numbers).
* `C144_exact_motion_found`: `ClassicalDedekindReals.sig_forall_dec`, `FunctionalExtensionality.functional_extensionality_dep` (axioms of the standard library's real numbers).
* `C144_any_weights_refuted`: `ClassicalDedekindReals.sig_forall_dec`, `FunctionalExtensionality.functional_extensionality_dep` (axioms of the standard library's real numbers).
* `C144_aligns_clouds_left_refuted`: `ClassicalDedekindReals.sig_forall_dec`, `FunctionalExtensionality.functional_extensionality_dep` (axioms of the standard library's real numbers).
* `C145_least_squares`: `ClassicalDedekindReals.sig_forall_dec`, `FunctionalExtensionality.functional_extensionality_dep` (axioms of the standard library's real numbers).
* `C145_coplanar`: `ClassicalDedekindReals.sig_not_dec`, `ClassicalDedekindReals.sig_forall_dec`, `FunctionalExtensionality.functional_extensionality_dep` (axioms of the standard library's real numbers).
* `C145_too_few`: `ClassicalDedekindReals.sig_forall_dec`, `FunctionalExtensionality.functional_extensionality_dep` (axioms of the standard library's real numbers).
* `C145_side_open`: `ClassicalDedekindReals.sig_forall_dec`, `FunctionalExtensionality.functional_extensionality_dep` (axioms of the standard library's real numbers).
* `C145_two_points_refuted`: `ClassicalDedekindReals.sig_not_dec`, `ClassicalDedekindReals.sig_forall_dec`, `FunctionalExtensionality.functional_extensionality_dep` (axioms of the standard library's real numbers).
* `C119_descriptor`: `ClassicalDedekindReals.sig_not_dec`, `ClassicalDedekindReals.sig_forall_dec`, `FunctionalExtensionality.functional_extensionality_dep`, `Classical_Prop.classic` (axioms of the standard library's real numbers).
* `C119_three_quarters_empty`: `ClassicalDedekindReals.sig_not_dec`, `ClassicalDedekindReals.sig_forall_dec`, `FunctionalExtensionality.functional_extensionality_dep`, `Classical_Prop.classic` (axioms of the standard library's real numbers).
* `C119_mirror_image`: `ClassicalDedekindReals.sig_not_dec`, `ClassicalDedekindReals.sig_forall_dec`, `FunctionalExtensionality.functional_extensionality_dep`, `Classical_Prop.classic` (axioms of the standard library's real numbers).
* `C119_sides_refuted`: `ClassicalDedekindReals.sig_not_dec`, `ClassicalDedekindReals.sig_forall_dec`, `FunctionalExtensionality.functional_extensionality_dep`, `Classical_Prop.classic` (axioms of the standard library's real numbers).
* `C119_plane_of_view`: `ClassicalDedekindReals.sig_not_dec`, `ClassicalDedekindReals.sig_forall_dec`, `FunctionalExtensionality.functional_extensionality_dep` (axioms of the standard library's real numbers).
* `C119_orthogonal_refuted`: `ClassicalDedekindReals.sig_not_dec`, `ClassicalDedekindReals.sig_forall_dec`, `FunctionalExtensionality.functional_extensionality_dep` (axioms of the standard library's real numbers).
* `C119_reuse`: `ClassicalDedekindReals.sig_not_dec`, `ClassicalDedekindReals.sig_forall_dec`, `FunctionalExtensionality.functional_extensionality_dep`, `Classical_Prop.classic` (axioms of the standard library's real numbers).
* `C119_failures`: `ClassicalDedekindReals.sig_not_dec`, `ClassicalDedekindReals.sig_forall_dec`, `FunctionalExtensionality.functional_extensionality_dep`, `Classical_Prop.classic` (axioms of the standard library's real numbers).
* `C120_range`: `ClassicalDedekindReals.sig_not_dec`, `ClassicalDedekindReals.sig_forall_dec`, `FunctionalExtensionality.functional_extensionality_dep` (axioms of the standard library's real numbers).
* `C120_symmetric`: `ClassicalDedekindReals.sig_not_dec`, `ClassicalDedekindReals.sig_forall_dec`, `FunctionalExtensionality.functional_extensionality_dep` (axioms of the standard library's real numbers).
* `C120_not_a_number`: `ClassicalDedekindReals.sig_not_dec`, `ClassicalDedekindReals.sig_forall_dec`, `FunctionalExtensionality.functional_extensionality_dep` (axioms of the standard library's real numbers).
* `C120_one`: `ClassicalDedekindReals.sig_not_dec`, `ClassicalDedekindReals.sig_forall_dec`, `FunctionalExtensionality.functional_extensionality_dep` (axioms of the standard library's real numbers).
* `C120_sign`: `ClassicalDedekindReals.sig_not_dec`, `ClassicalDedekindReals.sig_forall_dec`, `FunctionalExtensionality.functional_extensionality_dep` (axioms of the standard library's real numbers).
* `C120_loop_test`: `ClassicalDedekindReals.sig_not_dec`, `ClassicalDedekindReals.sig_forall_dec`, `FunctionalExtensionality.functional_extensionality_dep` (axioms of the standard library's real numbers).
* `C122_inputs`: `ClassicalDedekindReals.sig_not_dec`, `ClassicalDedekindReals.sig_forall_dec`, `FunctionalExtensionality.functional_extensionality_dep` (axioms of the standard library's real numbers).
* `C122_missing`: `ClassicalDedekindReals.sig_not_dec`, `ClassicalDedekindReals.sig_forall_dec`, `FunctionalExtensionality.functional_extensionality_dep` (axioms of the standard library's real numbers).
* `C122_pair_without_points`: `ClassicalDedekindReals.sig_not_dec`, `ClassicalDedekindReals.sig_forall_dec`, `FunctionalExtensionality.functional_extensionality_dep` (axioms of the standard library's real numbers).
* `C122_front_without_points`: `ClassicalDedekindReals.sig_not_dec`, `ClassicalDedekindReals.sig_forall_dec`, `FunctionalExtensionality.functional_extensionality_dep` (axioms of the standard library's real numbers).
* `C122_fast_submaps`: `ClassicalDedekindReals.sig_not_dec`, `ClassicalDedekindReals.sig_forall_dec`, `FunctionalExtensionality.functional_extensionality_dep` (axioms of the standard library's real numbers).
* `C123_scores`: `ClassicalDedekindReals.sig_not_dec`, `ClassicalDedekindReals.sig_forall_dec`, `FunctionalExtensionality.functional_extensionality_dep`, `Classical_Prop.classic` (axioms of the standard library's real numbers).
* `C123_ndt_gicp`: `ClassicalDedekindReals.sig_not_dec`, `ClassicalDedekindReals.sig_forall_dec`, `FunctionalExtensionality.functional_extensionality_dep` (axioms of the standard library's real numbers).
* `C123_failed_ndt`: `ClassicalDedekindReals.sig_not_dec`, `ClassicalDedekindReals.sig_forall_dec`, `FunctionalExtensionality.functional_extensionality_dep` (axioms of the standard library's real numbers).
* `C123_pair`: `ClassicalDedekindReals.sig_not_dec`, `ClassicalDedekindReals.sig_forall_dec`, `FunctionalExtensionality.functional_extensionality_dep`, `Classical_Prop.classic` (axioms of the standard library's real numbers).
* `C123_no_matches`: `ClassicalDedekindReals.sig_not_dec`, `ClassicalDedekindReals.sig_forall_dec`, `FunctionalExtensionality.functional_extensionality_dep` (axioms of the standard library's real numbers).
* `C123_ndt_backwards`: `ClassicalDedekindReals.sig_not_dec`, `ClassicalDedekindReals.sig_forall_dec`, `FunctionalExtensionality.functional_extensionality_dep` (axioms of the standard library's real numbers).
* `C123_loop`: `ClassicalDedekindReals.sig_not_dec`, `ClassicalDedekindReals.sig_forall_dec`, `FunctionalExtensionality.functional_extensionality_dep`, `Classical_Prop.classic` (axioms of the standard library's real numbers).
* `C122_last_source_refuted`: `ClassicalDedekindReals.sig_not_dec`, `ClassicalDedekindReals.sig_forall_dec`, `FunctionalExtensionality.functional_extensionality_dep` (axioms of the standard library's real numbers).
* `C123_better_refuted`: `ClassicalDedekindReals.sig_not_dec`, `ClassicalDedekindReals.sig_forall_dec`, `FunctionalExtensionality.functional_extensionality_dep` (axioms of the standard library's real numbers).
* `C123_failed_refuted`: `ClassicalDedekindReals.sig_not_dec`, `ClassicalDedekindReals.sig_forall_dec`, `FunctionalExtensionality.functional_extensionality_dep`, `Classical_Prop.classic` (axioms of the standard library's real numbers).
* `C33_log_odds_is_bayes`: `ClassicalDedekindReals.sig_not_dec`, `ClassicalDedekindReals.sig_forall_dec`, `FunctionalExtensionality.functional_extensionality_dep`, `Classical_Prop.classic` (axioms of the standard library's real numbers).
* `C130_gradient`: `ClassicalDedekindReals.sig_not_dec`, `ClassicalDedekindReals.sig_forall_dec`, `FunctionalExtensionality.functional_extensionality_dep` (axioms of the standard library's real numbers).
* `C130_near_zero`: `ClassicalDedekindReals.sig_not_dec`, `ClassicalDedekindReals.sig_forall_dec`, `FunctionalExtensionality.functional_extensionality_dep`, `Classical_Prop.classic` (axioms of the standard library's real numbers).
* `C130_near_zero_exact_refuted`: `ClassicalDedekindReals.sig_not_dec`, `ClassicalDedekindReals.sig_forall_dec`, `FunctionalExtensionality.functional_extensionality_dep`, `Classical_Prop.classic` (axioms of the standard library's real numbers).
* `C130_hessian`: `ClassicalDedekindReals.sig_not_dec`, `ClassicalDedekindReals.sig_forall_dec`, `FunctionalExtensionality.functional_extensionality_dep` (axioms of the standard library's real numbers).
* `C130_score`: `ClassicalDedekindReals.sig_not_dec`, `ClassicalDedekindReals.sig_forall_dec`, `FunctionalExtensionality.functional_extensionality_dep`, `Classical_Prop.classic` (axioms of the standard library's real numbers).
* `C130_never_dropped`: `ClassicalDedekindReals.sig_not_dec`, `ClassicalDedekindReals.sig_forall_dec`, `FunctionalExtensionality.functional_extensionality_dep`, `Classical_Prop.classic` (axioms of the standard library's real numbers).
* `C130_dropped`: `ClassicalDedekindReals.sig_not_dec`, `ClassicalDedekindReals.sig_forall_dec`, `FunctionalExtensionality.functional_extensionality_dep` (axioms of the standard library's real numbers).
* `C130_same_hessian`: `ClassicalDedekindReals.sig_not_dec`, `ClassicalDedekindReals.sig_forall_dec`, `FunctionalExtensionality.functional_extensionality_dep` (axioms of the standard library's real numbers).
* `C130_hessian_refuted`: `ClassicalDedekindReals.sig_not_dec`, `ClassicalDedekindReals.sig_forall_dec`, `FunctionalExtensionality.functional_extensionality_dep`, `Classical_Prop.classic` (axioms of the standard library's real numbers).
* `C130_constants`: `ClassicalDedekindReals.sig_not_dec`, `ClassicalDedekindReals.sig_forall_dec`, `FunctionalExtensionality.functional_extensionality_dep`, `Classical_Prop.classic` (axioms of the standard library's real numbers).
* `C139_minimum`: `ClassicalDedekindReals.sig_forall_dec`, `FunctionalExtensionality.functional_extensionality_dep` (axioms of the standard library's real numbers).
* `C139_cubic`: `ClassicalDedekindReals.sig_not_dec`, `ClassicalDedekindReals.sig_forall_dec`, `FunctionalExtensionality.functional_extensionality_dep` (axioms of the standard library's real numbers).
* `C139_cubic_refuted`: `ClassicalDedekindReals.sig_not_dec`, `ClassicalDedekindReals.sig_forall_dec`, `FunctionalExtensionality.functional_extensionality_dep` (axioms of the standard library's real numbers).
* `C139_secant`: `ClassicalDedekindReals.sig_forall_dec`, `FunctionalExtensionality.functional_extensionality_dep` (axioms of the standard library's real numbers).
* `C139_case1`: `ClassicalDedekindReals.sig_not_dec`, `ClassicalDedekindReals.sig_forall_dec`, `FunctionalExtensionality.functional_extensionality_dep` (axioms of the standard library's real numbers).
* `C139_case2`: `ClassicalDedekindReals.sig_not_dec`, `ClassicalDedekindReals.sig_forall_dec`, `FunctionalExtensionality.functional_extensionality_dep` (axioms of the standard library's real numbers).
* `C139_case3`: `ClassicalDedekindReals.sig_not_dec`, `ClassicalDedekindReals.sig_forall_dec`, `FunctionalExtensionality.functional_extensionality_dep` (axioms of the standard library's real numbers).
* `C139_case4_refuted`: `ClassicalDedekindReals.sig_not_dec`, `ClassicalDedekindReals.sig_forall_dec`, `FunctionalExtensionality.functional_extensionality_dep` (axioms of the standard library's real numbers).
* `C139_case4`: `ClassicalDedekindReals.sig_not_dec`, `ClassicalDedekindReals.sig_forall_dec`, `FunctionalExtensionality.functional_extensionality_dep` (axioms of the standard library's real numbers).
* `C139_interval`: `ClassicalDedekindReals.sig_forall_dec`, `FunctionalExtensionality.functional_extensionality_dep` (axioms of the standard library's real numbers).
* `C139_bracket`: `ClassicalDedekindReals.sig_not_dec`, `ClassicalDedekindReals.sig_forall_dec`, `FunctionalExtensionality.functional_extensionality_dep`, `Classical_Prop.classic` (axioms of the standard library's real numbers).
* `C139_stop`: `ClassicalDedekindReals.sig_forall_dec`, `FunctionalExtensionality.functional_extensionality_dep` (axioms of the standard library's real numbers).
* `C139_curvature_refuted`: `ClassicalDedekindReals.sig_forall_dec`, `FunctionalExtensionality.functional_extensionality_dep` (axioms of the standard library's real numbers).
* `C139_aux`: `ClassicalDedekindReals.sig_forall_dec`, `FunctionalExtensionality.functional_extensionality_dep` (axioms of the standard library's real numbers).
* `C139_convert_refuted`: `ClassicalDedekindReals.sig_forall_dec`, `FunctionalExtensionality.functional_extensionality_dep` (axioms of the standard library's real numbers).
* `C133_start`: `ClassicalDedekindReals.sig_not_dec`, `ClassicalDedekindReals.sig_forall_dec`, `FunctionalExtensionality.functional_extensionality_dep`, `Classical_Prop.classic` (axioms of the standard library's real numbers).
* `C133_range`: `ClassicalDedekindReals.sig_not_dec`, `ClassicalDedekindReals.sig_forall_dec`, `FunctionalExtensionality.functional_extensionality_dep`, `Classical_Prop.classic` (axioms of the standard library's real numbers).
* `C133_first_score`: `ClassicalDedekindReals.sig_not_dec`, `ClassicalDedekindReals.sig_forall_dec`, `FunctionalExtensionality.functional_extensionality_dep`, `Classical_Prop.classic` (axioms of the standard library's real numbers).
* `C133_result`: `ClassicalDedekindReals.sig_not_dec`, `ClassicalDedekindReals.sig_forall_dec`, `FunctionalExtensionality.functional_extensionality_dep`, `Classical_Prop.classic` (axioms of the standard library's real numbers).
* `C133_small_refuted`: `ClassicalDedekindReals.sig_not_dec`, `ClassicalDedekindReals.sig_forall_dec`, `FunctionalExtensionality.functional_extensionality_dep`, `Classical_Prop.classic` (axioms of the standard library's real numbers).
* `C133_scaled_refuted`: `ClassicalDedekindReals.sig_not_dec`, `ClassicalDedekindReals.sig_forall_dec`, `FunctionalExtensionality.functional_extensionality_dep`, `Classical_Prop.classic` (axioms of the standard library's real numbers).
* `C131_step`: `ClassicalDedekindReals.sig_not_dec`, `ClassicalDedekindReals.sig_forall_dec`, `FunctionalExtensionality.functional_extensionality_dep` (axioms of the standard library's real numbers).
* `C131_distance`: `ClassicalDedekindReals.sig_not_dec`, `ClassicalDedekindReals.sig_forall_dec`, `FunctionalExtensionality.functional_extensionality_dep` (axioms of the standard library's real numbers).
* `C131_converged_refuted`: `ClassicalDedekindReals.sig_not_dec`, `ClassicalDedekindReals.sig_forall_dec`, `FunctionalExtensionality.functional_extensionality_dep` (axioms of the standard library's real numbers).
* `C131_increase_refuted`: `ClassicalDedekindReals.sig_not_dec`, `ClassicalDedekindReals.sig_forall_dec`, `FunctionalExtensionality.functional_extensionality_dep` (axioms of the standard library's real numbers).
* `C138_roundtrip`: `ClassicalDedekindReals.sig_not_dec`, `ClassicalDedekindReals.sig_forall_dec`, `FunctionalExtensionality.functional_extensionality_dep` (axioms of the standard library's real numbers).
* `C138_copied`: `ClassicalDedekindReals.sig_forall_dec` (axioms of the standard library's real numbers).
* `C138_matrix`: `ClassicalDedekindReals.sig_not_dec`, `ClassicalDedekindReals.sig_forall_dec`, `FunctionalExtensionality.functional_extensionality_dep` (axioms of the standard library's real numbers).
* `C138_error`: `ClassicalDedekindReals.sig_not_dec`, `ClassicalDedekindReals.sig_forall_dec`, `FunctionalExtensionality.functional_extensionality_dep` (axioms of the standard library's real numbers).
* `C138_rigid`: `ClassicalDedekindReals.sig_forall_dec`, `FunctionalExtensionality.functional_extensionality_dep` (axioms of the standard library's real numbers).
* `C138_track`: `ClassicalDedekindReals.sig_forall_dec`, `FunctionalExtensionality.functional_extensionality_dep` (axioms of the standard library's real numbers).
* `C138_distances`: `ClassicalDedekindReals.sig_forall_dec`, `FunctionalExtensionality.functional_extensionality_dep` (axioms of the standard library's real numbers).
* `C138_distances_refuted`: `ClassicalDedekindReals.sig_forall_dec`, `FunctionalExtensionality.functional_extensionality_dep` (axioms of the standard library's real numbers).
* `C138_orientation_refuted`: `ClassicalDedekindReals.sig_not_dec`, `ClassicalDedekindReals.sig_forall_dec`, `FunctionalExtensionality.functional_extensionality_dep` (axioms of the standard library's real numbers).
* `C117_solution_is_least_cost`: `ClassicalDedekindReals.sig_forall_dec`, `FunctionalExtensionality.functional_extensionality_dep` (axioms of the standard library's real numbers).
* `C117_matrix_positive`: `ClassicalDedekindReals.sig_forall_dec`, `FunctionalExtensionality.functional_extensionality_dep` (axioms of the standard library's real numbers).
* `C117_unique_up_to_sliding`: `ClassicalDedekindReals.sig_forall_dec`, `FunctionalExtensionality.functional_extensionality_dep` (axioms of the standard library's real numbers).
* `C117_second_order`: `ClassicalDedekindReals.sig_not_dec`, `ClassicalDedekindReals.sig_forall_dec`, `FunctionalExtensionality.functional_extensionality_dep`, `Classical_Prop.classic` (axioms of the standard library's real numbers).
* `C117_never_worse_refuted`: `ClassicalDedekindReals.sig_not_dec`, `ClassicalDedekindReals.sig_forall_dec`, `FunctionalExtensionality.functional_extensionality_dep` (axioms of the standard library's real numbers).
* `C118_rigid`: `ClassicalDedekindReals.sig_not_dec`, `ClassicalDedekindReals.sig_forall_dec`, `FunctionalExtensionality.functional_extensionality_dep` (axioms of the standard library's real numbers).
* `C118_around_the_mean`: `ClassicalDedekindReals.sig_not_dec`, `ClassicalDedekindReals.sig_forall_dec`, `FunctionalExtensionality.functional_extensionality_dep` (axioms of the standard library's real numbers).
* `C118_perfect_guess`: `ClassicalDedekindReals.sig_not_dec`, `ClassicalDedekindReals.sig_forall_dec`, `FunctionalExtensionality.functional_extensionality_dep` (axioms of the standard library's real numbers).
* `C118_score`: `ClassicalDedekindReals.sig_not_dec`, `ClassicalDedekindReals.sig_forall_dec`, `FunctionalExtensionality.functional_extensionality_dep`, `Classical_Prop.classic` (axioms of the standard library's real numbers).
* `C118_translation_in_one_step`: `ClassicalDedekindReals.sig_not_dec`, `ClassicalDedekindReals.sig_forall_dec`, `FunctionalExtensionality.functional_extensionality_dep` (axioms of the standard library's real numbers).
* `C118_score_of_result_refuted`: `ClassicalDedekindReals.sig_not_dec`, `ClassicalDedekindReals.sig_forall_dec`, `FunctionalExtensionality.functional_extensionality_dep`, `Classical_Prop.classic` (axioms of the standard library's real numbers).
* `C109_angles_to_rotation`: `ClassicalDedekindReals.sig_not_dec`, `ClassicalDedekindReals.sig_forall_dec`, `FunctionalExtensionality.functional_extensionality_dep` (axioms of the standard library's real numbers).
* `C109_pose_roundtrip`: `ClassicalDedekindReals.sig_not_dec`, `ClassicalDedekindReals.sig_forall_dec`, `FunctionalExtensionality.functional_extensionality_dep`, `Classical_Prop.classic` (axioms of the standard library's real numbers).
* `C109_pose_near_vertical`: `ClassicalDedekindReals.sig_not_dec`, `ClassicalDedekindReals.sig_forall_dec`, `FunctionalExtensionality.functional_extensionality_dep`, `Classical_Prop.classic` (axioms of the standard library's real numbers).
* `C109_pose_vertical`: `ClassicalDedekindReals.sig_not_dec`, `ClassicalDedekindReals.sig_forall_dec`, `FunctionalExtensionality.functional_extensionality_dep`, `Classical_Prop.classic` (axioms of the standard library's real numbers).
* `C109_angles_roundtrip`: `ClassicalDedekindReals.sig_not_dec`, `ClassicalDedekindReals.sig_forall_dec`, `FunctionalExtensionality.functional_extensionality_dep`, `Classical_Prop.classic` (axioms of the standard library's real numbers).
* `C109_ranges`: `ClassicalDedekindReals.sig_not_dec`, `ClassicalDedekindReals.sig_forall_dec`, `FunctionalExtensionality.functional_extensionality_dep`, `Classical_Prop.classic` (axioms of the standard library's real numbers).
* `C109_roundtrip_refuted`: `ClassicalDedekindReals.sig_not_dec`, `ClassicalDedekindReals.sig_forall_dec`, `FunctionalExtensionality.functional_extensionality_dep`, `Classical_Prop.classic` (axioms of the standard library's real numbers).
* `C110_result_rigid`: `ClassicalDedekindReals.sig_not_dec`, `ClassicalDedekindReals.sig_forall_dec`, `FunctionalExtensionality.functional_extensionality_dep` (axioms of the standard library's real numbers).
* `C110_rigid_unchanged`: `ClassicalDedekindReals.sig_not_dec`, `ClassicalDedekindReals.sig_forall_dec`, `FunctionalExtensionality.functional_extensionality_dep` (axioms of the standard library's real numbers).
* `C110_idempotent`: `ClassicalDedekindReals.sig_not_dec`, `ClassicalDedekindReals.sig_forall_dec`, `FunctionalExtensionality.functional_extensionality_dep` (axioms of the standard library's real numbers).
* `C110_quaternion`: `ClassicalDedekindReals.sig_not_dec`, `ClassicalDedekindReals.sig_forall_dec`, `FunctionalExtensionality.functional_extensionality_dep` (axioms of the standard library's real numbers).
* `C111_factor`: `ClassicalDedekindReals.sig_not_dec`, `ClassicalDedekindReals.sig_forall_dec`, `FunctionalExtensionality.functional_extensionality_dep`, `Classical_Prop.classic` (axioms of the standard library's real numbers).
* `C111_ends`: `ClassicalDedekindReals.sig_not_dec`, `ClassicalDedekindReals.sig_forall_dec`, `FunctionalExtensionality.functional_extensionality_dep`, `Classical_Prop.classic` (axioms of the standard library's real numbers).
* `C111_same`: `ClassicalDedekindReals.sig_not_dec`, `ClassicalDedekindReals.sig_forall_dec`, `FunctionalExtensionality.functional_extensionality_dep`, `Classical_Prop.classic` (axioms of the standard library's real numbers).
* `C111_translation`: `ClassicalDedekindReals.sig_not_dec`, `ClassicalDedekindReals.sig_forall_dec`, `FunctionalExtensionality.functional_extensionality_dep`, `Classical_Prop.classic` (axioms of the standard library's real numbers).
* `C111_rotation`: `ClassicalDedekindReals.sig_not_dec`, `ClassicalDedekindReals.sig_forall_dec`, `FunctionalExtensionality.functional_extensionality_dep`, `Classical_Prop.classic` (axioms of the standard library's real numbers).
* `C111_rotation_close`: `ClassicalDedekindReals.sig_not_dec`, `ClassicalDedekindReals.sig_forall_dec`, `FunctionalExtensionality.functional_extensionality_dep`, `Classical_Prop.classic` (axioms of the standard library's real numbers).
* `C111_compensation_aborts`: `ClassicalDedekindReals.sig_not_dec`, `ClassicalDedekindReals.sig_forall_dec`, `FunctionalExtensionality.functional_extensionality_dep`, `Classical_Prop.classic` (axioms of the standard library's real numbers).
* `C111_compensation`: `ClassicalDedekindReals.sig_not_dec`, `ClassicalDedekindReals.sig_forall_dec`, `FunctionalExtensionality.functional_extensionality_dep`, `Classical_Prop.classic` (axioms of the standard library's real numbers).
* `C127_exact`: `ClassicalDedekindReals.sig_not_dec`, `ClassicalDedekindReals.sig_forall_dec`, `FunctionalExtensionality.functional_extensionality_dep`, `Classical_Prop.classic` (axioms of the standard library's real numbers).
* `C127_plane`: `ClassicalDedekindReals.sig_not_dec`, `ClassicalDedekindReals.sig_forall_dec`, `FunctionalExtensionality.functional_extensionality_dep`, `Classical_Prop.classic` (axioms of the standard library's real numbers).
* `C127_max_rotation_refuted`: `ClassicalDedekindReals.sig_not_dec`, `ClassicalDedekindReals.sig_forall_dec`, `FunctionalExtensionality.functional_extensionality_dep`, `Classical_Prop.classic` (axioms of the standard library's real numbers).
* `C132_normal`: `ClassicalDedekindReals.sig_forall_dec`, `FunctionalExtensionality.functional_extensionality_dep` (axioms of the standard library's real numbers).
* `C132_thick`: `ClassicalDedekindReals.sig_forall_dec`, `FunctionalExtensionality.functional_extensionality_dep` (axioms of the standard library's real numbers).
* `C132_covariance_refuted`: `ClassicalDedekindReals.sig_forall_dec`, `FunctionalExtensionality.functional_extensionality_dep` (axioms of the standard library's real numbers).
* `C132_means`: `ClassicalDedekindReals.sig_forall_dec`, `FunctionalExtensionality.functional_extensionality_dep` (axioms of the standard library's real numbers).

`vcheck` also lists `Coq.Reals.Rdefinitions.*` and `Coq.ssr.ssrunder.Under_rel.*`: they are module-type symbols of library files that are loaded, no theorem depends on them.

## What is modelled

The opening comment of every model file, with the simplifications it makes (simplifications of single functions are in the comment of the definition):

* `AccumModel.v`: Model of the cloud insertion of builder/data/data_collector.h:160-211 and of the conversion builder/data/cloud_types.cc:257-269.
* `ApiModel.v`: Model of the calls of MapBuilder as seen by its user: constructor, Initialise, the setters, the Insert functions, EnableUsingGps, EnableUsingOdom and FinishAllComputations (builder/map_builder.cc:53-59, 62-112, 115-226, 715-746, 780-805), the first part of PoseExtrapolator::InitializeWithImu, GetLastPoseTime and AddImuData (builder/pose_extrapolator.cc:46-91, 123-133) and AddSensorData (builder/data/data_collector.cc:71-118, data_collector.h:161-163). The calls come from one thread, as in ros_node/static_mapping_node.cpp. The scan match thread is present only by the poses it adds to the extrapolator, as a separate step at any time. Initialise is given a file that passes all checks (see ConfigModel for those); `settings` are the flags read from it. A second Initialise is not modelled: the model gives UB (while the threads run it is a data race). Transforms and messages are of arbitrary types. A matrix or flag that the constructor does not initialise is None; to copy it is allowed, to compute with it is UB.
* `BagModel.v`: Model of ros_node/playable_bag.cc and of the playback loop of ros_node/static_mapping_node.cpp. A message is any value with a time; the rosbag view is the list of its messages in the order in which it iterates over them.
* `BuilderModel.v`: Model of the thread structure of builder/map_builder.cc: the main thread (InitialiseInside 103-110, InsertPointcloudMsg 156-169, FinishAllComputations 715-746), the preprocessing thread of the data collector (data/data_collector.cc:120-156, in detail in PipeModel), the scan-match thread (ScanMatchProcessing 260-397), the submap thread (SubmapProcessing 644-713), the task ConnectAllSubmap (448-613) and the tasks SubmapPairMatch (399-446) of its thread pool. Every step is one access to shared state. frames_ and the trajectory are tbb::concurrent_vector (map_builder.h:258, trajectory.h:56): push_back first makes the vector larger and then constructs the element, size() counts elements still under construction, and reading such an element is UB (`None`). The numerical content is a parameter: `sm_step` is what scan matching does with one cloud (its local state, and the frame it inserts if the cloud becomes a key frame). The tasks of the pool run in any order, each once (ThreadPool, C14); a task of SubmapPairMatch is one step, its effect is the call of SetMatchedTransformedToNext (432/437), which aborts when it was called before on that submap (submap.cc, C32). Not modelled here: poses, the optimizer (its AddFrame calls are recorded), GPS, visualisation callbacks, the output written by 586-612, and the sleeps. One thread calls the public functions, as in ros_node/static_mapping_node.cpp.
* `CalibModel.v`: Model of builder/deprecated/offline_calibration.{h,cc}: the mounting of the odometry from the submaps of a trajectory. The file is not part of the build. Numbers are reals without rounding. `solve` is Ceres: from the residuals (CostModel.v) and the start, new values of the parameters; the Huber loss, cc:86, is part of it. The last row of *result, which the function leaves as it was, is not modelled.
* `CloudFileModel.v`: Model of the binary cloud file format: InnerPointType / InnerCloudType Serialize and Deserialize, builder/data/cloud_types.cc:147-165, 180-195, 207-230, on a little-endian machine with 8-byte size_t. A float is its 32-bit pattern. A file is a list of bytes (values 0..255).
* `CloudStoreModel.v`: Model of InnerPointCloudData, builder/data/cloud_types.cc:370-462: the cloud of a frame or submap with its eviction to disk. One thread (the class is internally locked); the disk is a map from file names to contents, shared with other objects. EigenPointCloud is reduced to the numbers of columns of its point and normal matrices.
* `ConfigModel.v`: Model of the configuration from XML: XmlInterface::SetValue (pre_processors/xml_interface.h:55-75), Interface::InitFromXmlNode (pre_processors/filter_interface.cc:29-60), Factory::InitFromXmlNode (pre_processors/filter_factory.cc:63-81), the constructors and ConfigsValid of all filters, Interface::InitWithXml and CreateMatcher (registrators/interface.cc:60-90, 139-173), ReadMatcherOptions, CheckOptions and MapBuilder::Initialise (builder/map_builder_options.cc:30-322) and MapBuilder::InitialiseInside (builder/map_builder.cc:62-113). An XML document is a tree with the operations of pugixml; the conversions of texts to numbers (as_int, as_float, as_bool) are arbitrary functions. Of the options only those are kept that are checked during the initialisation; console output, the optimizer and the threads are left out.
* `CostModel.v`: Model of builder/cost_functions/gps_map_match.h and odom_map_match.h: the residuals that match GPS positions and odometry with the path of a map. Only files under deprecated/ use them. Numbers are reals without rounding. Of Ceres only the residual is modelled, not its derivatives; the Create functions just wrap the objects. A pose is a matrix with the last row 0 0 0 1.
* `DisplayModel.v`: Model of the display functions called by MapBuilder::ConnectAllSubmap, builder/map_builder.cc:495-557 (set by SetShowMapFunction etc., 764-778, called by ros_node/static_mapping_node.cpp:370-383), on top of the threads of BuilderModel.v. The state of BuilderModel is extended by the place inside of lines 503-557 and by the calls made so far. Each look at an element of the trajectory is one step: the submap thread may run in between, and end() of a range-for over a tbb::concurrent_vector is size() when the loop starts, which counts an element that is still under construction. Poses of the submaps are written only by this thread (SetGlobalPose at 487 and inside of AddFrame), so they are given by a function of the number of submaps connected so far; it is arbitrary. The cloud of a submap is a function of its frames (that it can be read at any time is C29 and C97). The index in the id of a submap is its place in the trajectory (681, IdsModel). Distances are real numbers. GetWholeGraph, the argument of show_edge, is not modelled. The functions are set before the first submap is complete.
* `EvictModel.v`: Model of one Submap shared by several threads, builder/submap.cc:174-275, with the cloud it owns (InnerPointCloudData, builder/data/cloud_types.cc:374-462), as a transition system: the lock operations of both classes are explicit and any number of threads may run any sequence of calls. Each call is a list of instructions; the conditions of the C++ code are instructions with a body. Reads and writes of std::atomic members are single instructions, and so is every access to the shared_ptr inner_cloud_ (that those accesses can race is theorem C97_pointer_race). InsertFrame, which takes no lock, is over. Reading and writing the file are single instructions. Frames are reduced to their lock operations, poses and the EigenPointCloud are left out. enable_disk_saving is a parameter.
* `ExportModel.v`: Model of MapBuilder::SaveMaps, builder/map_builder.cc:825-911. A submap is the list of the clouds of its frames, already moved to their global poses (844-846). submap->GetId().submap_index is the position in the trajectory (it is assigned so by SubmapProcessing, 667-672). The multi-resolution map is represented by the list of clouds inserted since its creation (MrvmModel.v models what it does with them); file contents are the clouds written. Writing always succeeds. The clearing of the clouds at 893-894 is not modelled.
* `ExtOdomModel.v`: Model of the odometry of builder/pose_extrapolator.{h,cc} and of EstimateGravityOrientation and InitRoughLinearVelocity. It extends ExtrapModel.v, which leaves odometry_data_ empty; nothing in the project calls these three. Positions and linear velocities are real vectors without rounding; orientations, angular velocities and the state of a tracker are values of arbitrary types, their arithmetic is a parameter: `secs_of` (ToSec), `velocity` (231-239), `turn` (298-301), `turn_imu` (290-292), `odo_angular` (155-159; a duration of 0 divides by zero there and gives infinite or undefined numbers, which are not modelled), `orient` (orientation()).
* `ExtrapModel.v`: Model of builder/pose_extrapolator.{h,cc} and of the interface of builder/imu_tracker.cc. Poses and velocities are values of arbitrary types. The numerical parts are parameters: `velocity` (pose_extrapolator.cc:231-239, the velocities from the oldest and the newest pose), `shorter` (the comparison of the two double durations, 225), `predict` (180-191 with 311-318 and, in CTRV mode, 295-302) and `predict_imu` (the same with the orientations of the two trackers, 288-293). An ImuTracker is the list of the calls made on it, newest first, and its time; `grav_ok` says whether the two CHECKs on the gravity direction (imu_tracker.cc:74-75) hold. No caller in the project adds odometry to an extrapolator: odometry_data_ is empty here, and ExtOdomModel.v adds it. The mutex makes the calls atomic.
* `FilesModel.v`: Model of common/file_utils.cc: FilePath and CreateDir.
* `FilterModel.v`: Model of the filters in pre_processors/: processor_interface.h, filter_interface.cc, filter_range.cc, filter_axis_range.cc, filter_bounding_box.cc, filter_random_sample.cc, filter_statistic_removal.cc, filter_voxel_grid.cc, filter_ground_removal.cc and filter_factory.cc, and of the use of the chain in builder/data/data_collector.cc. Floats are IEEE-754 binary32 values (SpecFloat), every operation rounded to binary32.
* `FrontModel.v`: Model of the front end: MapBuilder::ScanMatchProcessing, builder/map_builder.cc:260-397, as a sequential function of the clouds it receives, and the admission check of InsertPointcloudMsg, builder/map_builder.cc:156-169. - Poses are elements of a group (Pose.v); NormalizeRotation is the identity. - Registration (Align, 330-333, with the motion compensation and averaging around it, 316-352) is an arbitrary function `mt target source`; a cloud is a source once, so this covers any dependence on the guess and on the matcher's state. - Of the extrapolator only the time of the last pose is modelled; its own failures are the subject of ExtrapModel.v. - Of the clouds only the time and the success of CalculateNormals matter.
* `GpsMatchModel.v`: Model of back_end/deprecated/map_gps_matcher.{h,cc}, MapGpsMatcher<2>: GPS positions are matched with a path in the plane. The file is not part of the build. Numbers are reals without rounding. Not modelled: the three dimensional case after its first estimate (Ceres), the output files. `lsq` is A.colPivHouseholderQr().solve(b).
* `GpsModel.v`: Model of the GPS, odometry and trimming parts of builder/data/data_collector.{h,cc}. Doubles are exact rationals here: rounding of ToSec() and of the interpolation is not modelled. The mutexes make every method atomic; the model runs the methods one after another.
* `GpsTrackModel.v`: Model of builder/sensor_fusions/imu_gps_tracker.{h,cc} (not part of the build: builder/CMakeLists.txt:3-4). Of GTSAM the factors and initial values it is given are modelled; `optimize` (the result of the optimizer, for every number of a state) and `predict` (of the preintegrated measurements) are arbitrary. Durations are real numbers without rounding; overflow of gps_count_, the warning for missing messages (74-78), the noise models and the printed position are not modelled. The prior velocity of the constructor is never initialised (49): `v0`, arbitrary.
* `Ground2Model.v`: Model of pre_processors/filter_ground_removal2.{h,cc}: GroundRemoval2, the ground filter of the shipped configurations, as built with OpenMP. Arithmetic is a parameter, so that the theorems hold for floats with any rounding, with the laws of the order they need stated; the examples use binary32. The least squares solution of FitLocalLine (Eigen, 33-48), std::sqrt, std::atan2 and the conversion of a quotient to int are parameters. The cloud that Filter writes is not the input cloud.
* `HashModel.v`: Model of common/eigen_hash.h: the hash of the keys of the voxel map (Vector3i), of the voxel filter (Vector3i) and of the range image (Vector2i). size_t has 64 bits, and std::hash<int> is the conversion to size_t, as in the library of the project's compiler.
* `IcpModel.v`: Model of registrators/icp_fast.{h,cc}: rejection of matches, the convergence test and Align. Distances are IEEE-754 binary64 values (SpecFloat). Oracles: std::nth_element, libnabo (the matches of the moved source cloud), ComputePointToPlane, and the distances between two transforms. Not modelled: the score (final_score_), NaN in the transforms; ComputePointToPoint is in KabschModel.v.
* `IdsModel.v`: Model of frame and submap identifiers and of the file names derived from them: builder/frame.cc:27-48, builder/submap.cc:46-66, 165-172, 204-208.
* `ImuModel.v`: Model of builder/imu_tracker.{h,cc}: ImuTracker, over the real numbers (see RigidModel), with Eigen's Quaternion::FromTwoVectors. Differences of time stamps are exact.
* `IsamModel.v`: Model of back_end/isam_optimizer.{h,cc} and of the part of MapBuilder::ConnectAllSubmap and CalculateCoordTransformToGps (builder/map_builder.cc:483-492, 748-763) that uses it. Poses are elements of a group. GTSAM is an oracle: `est n k` is the estimate of variable `k` after `n` calls of ISAM2::update (isam_optimizer.cc:97-100), `solved l` the result of the separate optimisation of the GPS frame (309-334), `turned l` the test that the largest rotation relative to the first pose is not below gps_factor_init_angle_rad (177-197, 269-270). Of GTSAM's own behaviour only its exceptions are modelled: inserting a variable twice and using a variable that was never inserted throw. The loop detector is LoopModel.v, the view graph ViewModel.v. Noise models, console output and AddImuData (declared only) are not modelled.
* `JoinModel.v`: Model of builder/multi_trajectory/multi_trajectory_map_builder.{h,cc} (LoadBaseMap, LoadIncrementalMap) and of back_end/multi_trajectory/multi_trajectory_optimizer.{h,cc}, the joining of maps. Neither is part of the build. A file is what LoadTrajectoryFromFile reads of it (C104 and C105): for every trajectory its submaps, with the index, pose and connections of each; `None` is a file that cannot be read. Submaps are shared between the builder, the optimizer and the loop detector: they are numbered in the order of their creation. Parameters: `rel` (target_pose.inverse() * source_pose), `detect` (the pairs and transforms of a successful LoopDetector::AddFrame, of which the second frame is always the added one; LoopModel.v) and `solve` (the result of the solver for a key). Of the solver itself only what it is given is modelled, and that it throws for a key given twice or not at all. Overflow of the indices, the view graph and the output are not modelled.
* `KabschModel.v`: Model of ComputePointToPoint (registrators/icp_fast.cc:326-375) and PlaneFitting (common/math.cc:201-238) over the real numbers: rounding, infinities and NaN are not modelled, float and double are the same. Neither has a caller in the repository. Singular value decompositions (Eigen::JacobiSVD) are a parameter.
* `KittiModel.v`: Model of ros_node/kitti_reader.{h,cc} and of its loop in ros_node/static_mapping_node.cpp:431-451. Floats are an arbitrary type (values are copied, the reflectance is scaled by an arbitrary function); a file is the list of its complete floats: fread drops a rest of less than four bytes. Oracles: the file system, the order of a directory listing, ros::ok and InsertPointcloudMsg.
* `LoopModel.v`: Model of LoopDetector, back_end/loop_detector.{h,cc}. What a call of AddFrame observes of the submaps is universally quantified (`obs`): the distances to the older frames (all positions are re-read at every call, 54-57), whether the descriptors match, the result of CloseLoop (282-318) for every target and the order in which the matching tasks finish. Frame indices are nat; the number of frames fits an int. Failures inside CloseLoop and the debug output (222-262) are not modelled.
* `LumModel.v`: Model of registrators/multiview_registrator_interface.h and multiview_registrator_lum_pcl.h, the alignment of several clouds. builder/submap.cc names the class but does not use it. Clouds and poses are values of arbitrary types; `move` is pcl::transformPointCloud, `matches` the correspondences found within 0.25 and `count` their number. Of pcl::registration::LUM the graph is modelled: clouds with a pose each, which addPointCloud appends with the pose `p0`, and for every pair the correspondences set last. `solve`, its compute, gives new poses. `place` is getTransformedCloud. max_iteration_num_ is 5, lum_pcl.h:87.
* `M2dpModel.v`: Model of descriptor/m2dp.{h,cc} and of FrameBase::CalculateDescriptor, builder/frame_base.cc:107-114. Exact real arithmetic; indices are unbounded integers. Oracles: pcl::PCA (the projected points) and Eigen::JacobiSVD (the first singular vectors, one after the other).
* `MapFileModel.v`: Model of the map file: Trajectory::ToXmlNode and SetEnuOffset (builder/trajectory.cc:32-63), MapBuilder::GenerateMapPackage (builder/map_builder.cc:807-814), Submap::SavedFileName (builder/submap.cc:276-281), and of the code that reads it, split, LoadTrajectoryFromFile and ConnectionsStrToIds (builder/multi_trajectory/multi_trajectory_map_builder.cc:33-42, 137-213, 277-299). The reader is in the repository but not part of the build. The XML document is a tree (ConfigModel); that it is written to and read from the file without change is assumed of pugixml. A pose is the six numbers of GlobalPoseIn6Dof; doubles are IEEE binary64 values, as text by an arbitrary function.
* `MatcherModel.v`: Model of the registrators as their callers see them: registrators/interface.{h,cc}, ndt.cc, ndt_gicp.cc, icp_pointmatcher.cc, the inputs of icp_fast.cc, and the two places that judge a match by its score: MapBuilder::SubmapPairMatch (builder/map_builder.cc:399-446) and LoopDetector::CloseLoop (back_end/loop_detector.cc:282-318). Oracles: the registration libraries (results and errors for two clouds and a guess, arbitrary), the voxel filter, NormalizeRotation. A transform is an arbitrary type: casts to float belong to the oracles. A score is a real number or NaN (`None`). Clouds are in memory (eviction: C97).
* `MathModel.v`: Model of integer helpers in common/math.h.
* `MrvmModel.v`: Model of builder/multi_resolution_voxel_map.{h,cc}. Keys are integer voxels; a point `p` is seen through its voxel `vox p` (lround(floor(coordinate / high_resolution)), math.cc:42-51), its intensity cut to int `inten p` (assumed to fit) and whether FATAL_CHECK_POINT accepts it (`fine p`). The ray of a point is the voxel path of VoxelCastingBresenham (RayModel.v) from the voxel of the (offset) origin. The hash map is an association list in creation order. Arithmetic: the float expression OddToProbability(odds_table_`n` + log_odd) of multi_resolution_voxel_map.cc:66-70 is a parameter `raw n hit : Q`, "the number the machine computes"; how close it is to the exact value is a hypothesis of the theorems that need it (MrvmSpec.v: accurate). Clamp and the multiplication by 256 are exact. NaN settings are not modelled. The loop over the points is sequential here (no _OPENMP); the parallel loop is the second part of this file.
* `NdtDerivModel.v`: Model of the score of the normal distributions transform and of its derivatives: registrators/pclomp/ndt_omp_impl.hpp:62-66 and 89-93 (constants), 176-280 (computeDerivatives), 283-402 (computeAngleDerivatives), 405-439 and 442-480 (computePointDerivatives, twice the same formulas), 483-536 (updateDerivatives), 539-595 (computeHessian) and 598-630 (updateHessian). calculateScore, 923-953, which nothing calls, is not modelled. Over the real numbers: the mixture of float and double, rounding, infinities and NaN are not modelled. The search for the cells near a point (target_cells_, a parameter here) is any function of the point.
* `NdtStartModel.v`: Model of the start of the normal distributions transform: registrators/pclomp/ndt_omp_impl.hpp:96-112, in exact arithmetic, with the library functions called there. `rotation_of` is Eigen's Transform::rotation() of an affine transform (the orthogonal factor by singular values): any function that gives a rotation, and a rotation back unchanged. pcl::Registration::align calls computeTransformation with final_transformation_ the identity and with a copy of the input as output. Not modelled: the float arithmetic of the guess, the sign of zeros in atan2.
* `NdtStepModel.v`: Model of the Newton iteration of the normal distributions transform and of its line search: registrators/pclomp/ndt_omp_impl.hpp:80-167 (computeTransformation), 632-676 (updateIntervalMT), 679-757 (trialValueSelectionMT), 760-920 (computeStepLengthMT) and ndt_omp.h:425-442 (psi and its derivative). The numbers are any type with any operations (doubles with NaN, or the reals); so are the library's scalar product, norm, normalisation and the solution of the linear system (sv.solve). The score, gradient and Hessian for parameters x are any functions of x: computeDerivatives after transformPointCloud of the input by the transform of x (C130 for what they are). Not modelled: the visualizer, transformation_ and previous_transformation_ (not read again), the overflow of the counter nr_iterations_.
* `NodeModel.v`: Model of main of ros_node/static_mapping_node.cpp (92-456) with its callbacks (61-90), of LoopUpTransfrom (ros_node/tf_bridge.cc:43-77), of ReadStaticTransformsFromUrdf (ros_node/urdf_reader.cc:33-68) and of the time stamps of ros_node/msg_conversion.cc, on top of the calls of MapBuilder (ApiModel). Messages of any one topic arrive with the type the node subscribes to or with another type; the other fields of a message are copied one by one by msg_conversion.cc and are one value here. The bag loop hands over the messages of the bag in their order (BagModel); the KITTI loop hands over the files (KittiModel); ros::spin hands over what arrives. The messages, files and the poses of the scan match thread are one list of events. The display functions and publishers are left out (DisplayModel), so is the profiler, the progress output and the sleep between messages.
* `NormalsModel.v`: Model of EigenPointCloud, builder/data/cloud_types.cc:43-144 and 288-368: normal estimation with its k-d style grouping, rigid transforms, motion compensation. Coordinates are exact rationals (rounding is not modelled). The rank test of the covariance matrix (cc:88-92) and the normal itself (cc:94, 102) are arbitrary functions of the points of the group; std::nth_element is an arbitrary function with the contract of the C++ standard (NormalsSpec.v).
* `NumTextModel.v`: Model of the numbers in the text files: path.csv of Trajectory::OutputPathToPointcloud (builder/trajectory.cc:117-126, 138-141), kitti_pose.txt of MapBuilder::OutputPath (builder/map_builder.cc:627-641) and path.csv of the tool path_statistic (tools/path_statistic.cc:28-60). std::to_string of a float or double is the C format "%f", and operator<< after std::setprecision(8) is "%.8g"; both print the exact value, rounded to the nearest decimal and to an even last digit between two, as the GNU C library does in the default rounding mode and the C locale. The sign of a NaN is not modelled.
* `OctreeModel.v`: Model of common/bounding_box.{h,cc} (CubeBoundingBox) and common/octree.{h,cc}. The code computes in double. The model is written once over an arithmetic `arith` and used with two instances: exact rationals `QA` (no rounding; this is the instance of most theorems) and IEEE binary64 `FA` (Coq.Floats.SpecFloat), in which rounding is modelled bit for bit.
* `OdomMsgModel.v`: Model of the odometry messages: OdomMsg (builder/data/data_types.h:119-147, data_types.cc:34-45), their conversion (ros_node/msg_conversion.cc:73-95), the pose they are stored as (data_collector.cc:174-194) and the transform taken from a message in ros_node/tf_bridge.cc:29-40, over the real numbers (no rounding, infinities or NaN).
* `OutputModel.v`: Model of the last part of MapBuilder::ConnectAllSubmap, builder/map_builder.cc:594-615, with CalculateCoordTransformToGps (748-762), OutputPath (617-642), GenerateMapPackage (807-814), the hand-over to SaveMapPackage (816-823) and SaveMaps (825-912, modelled in ExportModel.v), Trajectory::OutputPathToPointcloud (builder/trajectory.cc:73-143), Trajectory::ToXmlNode (32-58) and DataCollector::RawGpsDataToFile / RawOdomDataToFile (builder/data/data_collector.cc:59-71). Poses are elements of a group which acts on points; rounding and the printing of a pose (six numbers in path.csv and map.xml, twelve in kitti_pose.txt, three floats in path.pcd) are not modelled, so a file holds the poses themselves. There is one trajectory (trajectories_ gets one element, map_builder.cc:214).
* `PackModel.v`: Model of builder/map_package.cc (SaveTrajectoriesAsMapPackage) and of tools/join_pieces.cc, in exact arithmetic.
* `PipeModel.v`: Model of the cloud pipeline of builder/data/data_collector.{h,cc} as a transition system: the thread calling AddSensorData<PointT> (data_collector.h:206-210), the preprocessing thread CloudPreProcessing (data_collector.cc:120-156), the thread calling GetNewCloud / ClearAllCloud (cc:158-167, 320-328) and the destructor (cc:51-56). mutex_`kPointCloudData` is explicit. Reading `deque::empty()` at cc:125 happens without the mutex and is treated as an atomic read that sees the current contents (see the race theorem C65); so is the non-atomic flag kill_cloud_preprocessing_thread_.
* `PlaneIcpModel.v`: Model of the geometry of one ICP call: the point to plane step and the frames of Align, registrators/icp_fast.cc. Exact real arithmetic, so no NaN: the repair of a NaN result (icp_fast.cc:315-321) does nothing. Which matches are kept, when the loop ends and which calls abort is the subject of IcpModel.v; here both are arbitrary. ComputePointToPoint is in KabschModel.v.
* `PlaneModel.v`: Model of pre_processors/plane_detector.h (PlaneDetector) and pre_processors/random_sample_with_plane_detect.h (RandomSamplerWithPlaneDetect), which submap.cc includes (its use there is commented out). Heights, leaf size and thresholds are rationals: the rounding of float differences is not modelled. The index of the voxel of a point (three quotients converted to int, plane_detector.h:79-81) is a parameter, undefined if a quotient does not fit an int (in particular for NaN). The RANSAC segmentation of PCL and the tests on quotients of two counts are parameters. The members min_z_ and max_z_ are written but never read and left out.
* `PointModel.v`: The check of points, common/point_utils.h, and its use when a submap is built, builder/submap.cc 98-133. Coordinates are binary32; arithmetic rounds to nearest and the sum of squares is evaluated in float without contraction, as on the platform of the project.
* `PoolModel.v`: Model of common/simple_thread_pool.h as a labelled transition system. Every section protected by queue_mutex_ is one atomic step; inside those sections nothing blocks (condition_variable::wait releases the mutex atomically), so this is the usual reduction for mutual exclusion. notify_one / notify_all happen outside the mutex (lines 97, 108) and are separate steps. Spurious wake-ups are possible. A task is a packaged_task, so an exception thrown by it ends up in the future and never leaves the worker.
* `ProcModel.v`: Model of ProcessProfiler, common/performance/process_info.{h,cc}: the thread that logs the use of processor and memory. The profiler of simple_prof.h has one as a member (98), so that it runs in every program with REGISTER_BLOCK. Files are texts (None: fopen fails). Values that the code reads before they are assigned are undefined. Simplifications: the percentage is an exact quotient (the code rounds it to double and to float); conversions of scanf that exceed the type are undefined; strerror output and the time in the name of the file are left out or parameters; the plain bool run_, which the destructor writes while the thread reads it, is taken as if it were atomic.
* `ProfModel.v`: Model of the profiler: common/performance/simple_prof.{h,cc} (on by default, CMakeLists.txt:129-136). REGISTER_BLOCK (simple_prof.h:108-111) declares `manager`, a copy of the shared pointer to the only TimerManager, and then `timer`. The destructors run in the opposite order: the timer stores the time, then the pointer is given up. The TimerManager is destroyed, and prints its table, when the last pointer to it is given up; the static one (simple_prof.cc:31) is given up when the program ends. Simplifications: the factors 1e-3 and 1e-6 of time_to_string are exact divisions; layout and colours of the table are left out; the first call of Instance, which is not protected, is the one of main (static_mapping_node.cpp:96), before other threads exist. References into an unordered_map stay valid when it grows, so that the pointer of a timer is the pair of block name and thread.
* `RangeModel.v`: Model of pre_processors/filter_range_image.{h,cc}: RangeImage::SetInputCloud, Filter, DepthCluster and LabelOneComponent. Not modelled: ToPng (writes a file only), max_label_ (never read), and filtering in place (see C87).
* `RayModel.v`: Model of the two voxel-casting functions of common/math.cc. Both first convert the ray's end points to integer voxels by lround(floor(coordinate / step_size)) (math.cc:42-44, 49-51, 107-121); the model starts from these integers (the isnan tests on int values are never true). `int` is 32 bits wide and an overflow is `UB`.
* `RigidModel.v`: Model of the rotations and rigid transforms of common/math.h:105-212, 238-245, of MotionCompensation (builder/map_builder.cc:232-258) and of the parts of Eigen (3.3, Geometry) they call, over the real numbers: rounding, signed zeros, infinities and NaN are not modelled, float and double are the same.
* `SubmapModel.v`: Model of Submap, builder/submap.{h,cc}, with the frames it owns (builder/frame.cc, builder/frame_base.cc) and the memory manager's ticks (builder/memory_manager.cc:52-63). One thread; poses are elements of a group (SetLocalPose and SetGlobalPose also re-normalise the rotation, frame_base.cc:47-50, 58-61, which is the identity on rigid transforms). Clouds are the stores of CloudStoreModel.v. A frame is owned by its submap: nothing else changes it.
* `TimeModel.v`: Model of common/simple_time.{h,cc}.
* `ToolModel.v`: Model of two programs in tools/: pcd_to_las.cc (a map cloud as LAS file) and pcd_sampler.cc (a random part of a map cloud). Argument parsing is pcl::console::parse_argument: the value after an option, or the default. PCL's reader and liblas' writer are parameters: what the programs hand to them and take from them is modelled.
* `TurnModel.v`: Model of IsamOptimizer::AnalyseAllFramePoseForMaxRotation, back_end/isam_optimizer.cc:175-195, and of the test that uses it, 266-268: the GPS frame is first estimated when a pose is turned far enough from the first one. IsamModel.v has the rest of AddFrame; the test is its parameter `turned`. The function is given once, for any kind of numbers: with real numbers (exact arithmetic) and with IEEE binary64 (doubles).
* `ViewModel.v`: Model of back_end/view_graph.h and back_end/view_graph.cc.
* `VoxelCovModel.v`: Model of the grid of normal distributions of the NDT registration, registrators/pclomp/voxel_grid_covariance_omp.h (.h) and voxel_grid_covariance_omp_impl.hpp (.hpp), as registrators/pclomp/ndt_omp.h:268-278 (init) uses it: one leaf size for all axes, no filter field, points without colour (downsample_all_data_ is false), save_leaf_layout_ is false. getDisplayCloud, nearestKSearch and getLeaf, which nothing calls, are not modelled.
* `VoxelOutModel.v`: Model of the export of the voxel map, builder/multi_resolution_voxel_map.cc:125-242, with the averages, the colours, the shape of the cloud and the file that MrvmModel.v leaves out, and of the unprotected update of the largest intensity, lines 95-98. Coordinates and intensities of points are rationals; the sums and the quotient of the average are exact here. The colour is computed in binary64 as in the code.

## What is not modelled

* Third-party code: `third_parties/` (CImg, pugixml), PCL, libnabo, GTSAM, g2o, TBB, rosbag. Of the PCL
  derivatives in `registrators/pclomp/` only the NDT is modelled (C130 ff.), not the GICP (not used). Where they are called, their results are arbitrary
  (universally quantified), restricted only by a stated contract.
* What third-party registration computes (`icp_pointmatcher.cc`, `ndt.cc` and `ndt_gicp.cc` call it; the
  wrappers are modelled for C122 and C123, the results are arbitrary), `registrators/cuda`, the LUM of PCL.
* `builder/sensor_fusions/imu_gps_ekf.{h,cc}` (declares an empty class), the derivatives of `builder/cost_functions/`, the three dimensional part of `back_end/deprecated/`, `registrators/deprecated/`.
* `common/macro_defines.cc` (console output), `tools/` viewers,
  the publishers and the edge markers of `ros_node/static_mapping_node.cpp`, the arguments and
  the point cloud outputs of `ros_node/join_maps_node.cpp`.
* Rounding, except where a model says that it uses IEEE floats; memory exhaustion; the contents of
  log messages; the argument of the edge display; real time (sleeps are no-ops).

## Plan per property

| id | module | what is modelled and how it is proved |
|---|---|---|
| C01 | SimpleTime | Z-valued records with explicit `mod 2^32` / `mod 2^64` casts; div/mod arithmetic (`lia`). |
| C02 | SimpleTime | comparison functions on the 64-bit nanosecond count; order laws by `lia`, refutation witnesses for transitivity of `==`. |
| C03 | SimpleTime | operators + and - with the int64 intermediate made explicit (overflow = UB outcome); shown unreachable. |
| C04 | SimpleTime | operator/= with truncating division and INT_MIN negation as UB. |
| C05 | SimpleTime | u64 multiplication with wrap, division by 1000. |
| C06 | TimeSearch | the search loop as a fuelled function over a list of time stamps, out-of-range read = throw, failed CHECK = Abort; loop invariant. |
| C07 | Gps | fold over messages of the insertion step; invariant relating the stored track to the message history. |
| C08 | Gps | InterpolateGps over exact rationals (double rounding not modelled). |
| C09 | Gps | same model; Abort outcome analysed. |
| C10 | Gps | TRIM_DATA loop; composition with InterpolateGps; witness. |
| C11 | Accumulate | fold of AddSensorData<PointT>; compared with chunking of the input history. |
| C12 | Pipeline | small-step interleaving semantics with the mutex-protected sections as atomic steps; history invariant by induction over reachable states. |
| C13 | Pipeline | filter chain model (Filters) plus the stamp check of the preprocessing thread. |
| C14 | ThreadPool | small-step semantics of producers, workers (wait, pop, run) and the destructor (stop, join); history invariant. |
| C15 | ThreadPool | same semantics; progress lemma + decreasing measure. |
| C16 | Octree | cubes with rational/integer coordinates (scaled by two at each level so that halving is exact). |
| C17 | Octree | BuildTree as a structurally terminating function on remaining depth; permutation proof. |
| C18 | Bresenham | integer loop, verbatim; closed form invariant of the error accumulator. |
| C19 | Bresenham | same, accuracy bound from the closed form. |
| C20 | DDA | integer loop, verbatim; invariant bounding the accumulated error. |
| C21 | CloudFile | byte-level serialiser/deserialiser on byte lists with little-endian fields. |
| C22 | CloudFile | stream model with good/eof/fail state as in the iostream specification for `read`. |
| C23 | CloudStore | state machine memory/disk; histories by induction. |
| C24 | CloudStore | same state machine with the normals flag. |
| C25 | Normals | index recursion with nth_element and the eigen-solver as arbitrary oracles (universally quantified). |
| C26 | Normals | 3x4 affine maps over Z/Q, exact arithmetic. |
| C27 | Ids | lexicographic comparisons on Z; decimal strings. |
| C28 | Submap | submap state machine; fold over insertions. |
| C29 | Submap | poses as an arbitrary group (universally quantified record with laws). |
| C30 | Submap | GetFrame with explicit int -> size_t conversion. |
| C31 | Submap | tick/access histories over the same state machine. |
| C32 | Submap | same. |
| C33 | Mrvm | 8-bit probability updates with the odds table over exact rationals. |
| C34 | Mrvm | finite map voxel -> cell, fold over clouds. |
| C35 | Mrvm | concrete witness, evaluated in the model. |
| C36 | Extrapolator | queue of (time,pose) with the trimming loop. |
| C37 | Extrapolator | cached pose state; witness. |
| C38 | Builder | interleaving semantics of the scan-match and submap threads. |
| C39 | Builder | same semantics; witness schedule, and the counter-model with the reads swapped. |
| C40 | Builder | same plus the collector queues. |
| C41 | KeyFrames | fold of the motion filter over relative motions. |
| C42 | SaveMaps | the part loop over submap indices. |
| C43 | LoopDetector | state machine over detection bits; run-length invariant. |
| C44 | LoopDetector | candidate selection and sub-sampling over index lists, distances/scores as oracles. |
| C45 | LoopDetector | CheckResult over edges with rational error norms. |
| C46 | ViewGraph | finite map of vertices/connections; fold over operations. |
| C47 | ViewGraph | bounding box fold with the tiny positive start value. |
| C48 | Filters | IEEE-754 binary32 from Coq.Floats.SpecFloat (computable, axiom free); generic predicate-filter lemma. |
| C49 | Filters | same. |
| C50 | Filters | voxel map as association list in arbitrary iteration order. |
| C51 | Filters | voxel map with exact averages. |
| C52 | Filters | chain as fold with the two shared middle clouds. |
| C53 | Range | IEEE-754 binary32/64; std::atan2 and the open cases of std::lround as oracles. Rounding of +, *, sqrt proved monotone (FloatRound, FloatOps), so that a point in the image always marks its pixel as occupied. |
| C54 | Range | BFS with a queue; fuel from a decreasing measure; the angle test on two ranges as oracle. |
| C55 | Icp | distances as extended values; nth_element by its specification. |
| C56 | Icp | loop with arbitrary step function and convergence test. |
| C57 | PlayableBag | buffer/iterator state machine; induction over the bag. |
| C58 | MapPackage | tiling arithmetic over Z/Q. |
| C59 | FileUtils | strings. |
| C60 | MathUtil | Z. |
| C61 | Gps | uniqueness and monotonicity of the bracketing pair; both calls reduced to the same neighbours. |
| C62 | Gps | fold over messages; poses as an arbitrary group. |
| C63 | Gps | same lemmas as C08 with the pose interpolation as an arbitrary function. |
| C64 | ThreadPool | invariant on notifications pending versus sleeping workers. |
| C65 | Pipe | mutex ownership invariant; explicit schedule. |
| C66 | Octree | same model as C17 without the containment hypothesis; witness for the stale depth. |
| C67 | Octree | induction on the fuel: every recursion depth is exhausted. |
| C68 | Octree | the same model instantiated with IEEE binary64 (SpecFloat) and evaluated. |
| C69 | Ray | explicit int range checks in the model; evaluation for the witness. |
| C70 | CloudStore | composition of the file format and store models. |
| C71 | Normals | corollary of the counts of C25; evaluation of the second call on a concrete cloud. |
| C72 | Submap | unfolding of the insertion with an invariant on the frames; for the MRVM branch, invariant 'not full' over all histories. |
| C73 | Mrvm | bound on the exact Bayes update for the minimal hit probability: less than one level. |
| C74 | Mrvm | small-step interleaving semantics with a counting invariant (size + pending pushes). |
| C75 | Extrapolator | failure conditions of each call; invariant over histories for totality in CTRV mode. |
| C76 | Extrapolator | invariant: log of the tracker = messages before the last pose; stored messages = suffix of all messages. |
| C77 | Builder | small-step interleaving semantics; conjunction of seven invariants excludes every other crash; witness schedules. |
| C78 | Builder | invariant on the connected indices and the collected batch; witness schedule. |
| C79 | Builder | explicit schedule built from every invariant state by induction on the remaining work; invariant relating pending tasks and matched flags. |
| C80 | Front | case analysis of one front-end step in an arbitrary state; evaluation of the queue model. |
| C81 | Loop | case analysis of AddFrame in an arbitrary state. |
| C82 | Math | loops with fuel; exact rationals for termination, SpecFloat binary64 for divergence. |
| C83 | Math | exact rationals, Euler angles as given. |
| C84 | View | exact rationals; history invariant shows that the drawing loop never inserts a vertex. |
| C85 | Bag | evaluation of the constructor for an arbitrary bag. |
| C86 | Pack | exact rational evaluation of the step count. |
| C87 | Filter | clouds in a heap, FilterPrepare before the input is read. |
| C88 | Filter | chain equals the in-order application of its other filters. |
| C89 | Range | same search invariant with arbitrary initial clusters. |
| C90 | Range | SpecFloat binary64, values as rationals. |
| C91 | Icp | unfold the first iteration. |
| C92 | Isam | invariant on inserted and pending variables and factors; induction over the frames. |
| C93 | Isam | each AddFrame appends an explicit list of factors; induction over the frames. |
| C94 | Isam | invariant relating the cache and the factors to the readings seen so far. |
| C95 | Isam | the view graph is a function of the submaps and links; induction over the frames. |
| C96 | Evict | small-step interleaving with boost::shared_mutex; a type system for lock use as the invariant; size of the remaining programs decreases. |
| C97 | Evict | data invariant over all reachable states; witness schedule for the refutation. |
| C98 | Evict | history of resets, ticks, decisions and drops; invariant relating it to the state. |
| C99 | Config | induction over the param elements with an invariant on names and types of the parameters; induction over the filter elements. |
| C100 | Config | composition of the configuration model with the filter models. |
| C101 | Config | induction over the param elements. |
| C102 | Config | case analysis of each check against a specification by paths in the document. |
| C103 | Config | composition of the XML configuration model with the voxel grid model; witness cloud for the refutation. |
| C104 | MapFile | value of printed decimal numbers by induction over digits; induction over tokens, submaps and trajectories. |
| C105 | MapFile | equality of the reader on documents that differ in the offset; decomposition of strings at the first bracket and comma. |
| C106 | Api | invariant that ties the state to the call history, by induction over the history from the end. |
| C107 | Api | case analysis of every call under the invariant of C106, in both directions. |
| C108 | Api | invariant of C106. |
| C109 | Rigid | real analysis of atan2; the nine entries from orthogonality and determinant. |
| C110 | Rigid | the ten products of the components of the quaternion form a matrix of rank one. |
| C111 | Rigid | trigonometry of the two weights; trace formula for the angle; induction over the cloud. |
| C112 | Imu | invariant over the calls; quaternion algebra; the singular branch of FromTwoVectors is bounded separately. |
| C113 | Imu | addition of angles about one axis; witness with two axes. |
| C114 | Ground2 | invariant of the fitting loop with a measure for --i; lines have increasing ends; witness for the range. |
| C115 | Ground2 | description of the grids in terms of the cloud; search order; witnesses. |
| C116 | Ground2 | invariant of the loop over the cells, with the state after a gap; witness. |
| C117 | PlaneIcp | gradient of the quadratic cost; Rodrigues' formula with a Taylor bound; witness with a rotation by 3/2 pi. |
| C118 | PlaneIcp | frame algebra; fixed point of the loop; uniqueness of the solution; witness for the score. |
| C119 | M2dp | floor and polar coordinates; counting by induction over the points; trigonometric witnesses. |
| C120 | M2dp | Cauchy-Schwarz for centred lists with its equality case. |
| C121 | Kitti | sortedness and permutation of an insertion sort; induction over the files left; witnesses. |
| C122 | Matcher | induction over the calls with the list of clouds split at the last one that counted; case analysis. |
| C123 | Matcher | monotonicity of exp and ln; case analysis; witnesses. |
| C124 | Prof | interleaving semantics with reference counts, projection to the sequential run of each thread; sorting and sums. |
| C125 | Output | closed form of the written files, naturality of SaveMaps in the points, exactness of small integers in binary32. |
| C126 | End | composition of C38, C40, C29 and C125 with an invariant for the stored clouds of the frames. |
| C127 | Turn | strict weak orders and sorted permutations over any kind of numbers; Cauchy-Schwarz; a witness in binary64. |
| C128 | Display | extension of the transition system of the threads, projection to it, invariant for the calls made. |
| C129 | Node | case analysis of main; every run is a legal sequence of calls of C106/C107, by induction over the messages. |
| C130 | NdtDeriv | limits of difference quotients for functions affine in cosine and sine, product and chain rules for the bell functions, sums over threads. |
| C131 | NdtStep | unfolding for arbitrary operations, invariants of the loop, Cauchy-Schwarz in six dimensions, a quadratic score as witness. |
| C132 | VoxelCov | sorted map against a list of points, injective packing of indices, quadratic forms in an orthonormal basis. |
| C133 | NdtStart | turning a rotation into the plane by the first angle, cofactors of rotations; C130 and C131. |
| C134 | Plane | ordered map against positions of the cloud, induction with the ceiling of the rate as invariant. |
| C135 | Proc | text processing by induction on the line; printing and scanning of numbers are inverse. |
| C136 | Point | error and monotonicity of rounding, the root of a float is below 1e8 just if the float is below 1e16. |
| C137 | Tool | induction on fields and points; encoding and decoding of bit patterns are inverse; error of rounding. |
| C138 | OdomMsg | algebra of quaternions and matrices; induction on the messages. |
| C139 | NdtLine | expansion of the cubic about its stationary point; signs of discriminants; extreme value theorem. |
| C140 | VoxelOut | folds over the voxels; bounds of means; enumeration of the 183 colours that are not saturated. |
| C141 | VoxelOut | invariant of the interleaved steps. |
| C142 | NumText | a reader of decimals, inverse to the printer; rounding to the nearest whole number is monotone and unique. |
| C143 | NumText | exact decimal expansion of a dyadic number; number of its digits; rounding. |
| C144 | Kabsch | expansion of the sum around both means; the trace of a rotation is at least -1. |
| C145 | Kabsch | the sum of squares is a sum of squared singular values with the coordinates of the normal. |
| C146 | ExtOdom | what a step keeps, then induction over the history. |
| C147 | Join | invariant of the optimizer over the phases of a load, then induction over the maps. |
| C148 | Join | positions of the submaps of all files in the order of their creation. |
| C149 | GpsTrack | invariant by induction over the history from its end; telescoping sum. |
| C150 | Hash | one step is injective in the element; the upper bits of both operands of the exclusive or are constant over the image. |
| C151 | Cost | the least distance by completing the square; the inverse of a pose (C138). |
| C152 | Lum | induction over the frames of an iteration and over the iterations. |
| C153 | GpsMatch | all differences of directions are the same angle in [0, 2 pi); induction over the pairs. |
| C154 | Calib | the transforms cancel; the Euler angles give the rotation back. |
