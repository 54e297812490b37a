(** C101: a program that traces runs only with a plugin that was built for it. *)
From Verif Require Import Base Version VersionSpec.
Open Scope Z_scope.

Lemma is_suits t b : is t b = true <-> suits t b.
Proof. unfold suits. destruct t, b; cbn; split; intros H; try reflexivity; try discriminate; auto; destruct H; discriminate. Qed.
Lemma level_ok p v : ((v_log_level v =? b_log_level p) || (v_log_level v =? INT_MAX))%bool = true <-> level_suits p v.
Proof. unfold level_suits. rewrite Bool.orb_true_iff, !Z.eqb_eq. reflexivity. Qed.
Lemma not_true b P : (b = true <-> P) -> b = false -> ~ P.
Proof. intros H F N. apply H in N. congruence. Qed.

(** A program compiled with its checks starts exactly with the plugins that belong to it.
    Missing: programs compiled for release ([C101_release_refuted]). *)
Theorem C101_starts_partial p v : b_trace p = true -> b_ndebug p = false -> (initialize_global p v = Goes <-> belongs p v).
Proof.
  intros T N. unfold initialize_global, check_version, lf_assert, belongs, threads_suit, type_suits. rewrite T, N, <- !is_suits, <- level_ok. cbn [negb].
  destruct (is (v_single_threaded v) _); [|split; [discriminate|intros (H & _); discriminate]].
  destruct (is (v_debug v) true); [|split; [discriminate|intros (_ & H & _); discriminate]].
  destruct (_ || _)%bool; [split; auto|split; [discriminate|intros (_ & _ & H); discriminate]].
Qed.
Example C101_starts_ex : let p := mkBuild true false 3 true in
  belongs p (mkVersion TTrue TDoesNotMatter INT_MAX (Some 7)) /\ ~ belongs p (mkVersion TFalse TTrue 3 None) /\ initialize_global p (mkVersion TFalse TTrue 3 None) = Stops ExpectedSingle.
Proof.
  cbn. split; [|split; [|reflexivity]].
  - split; [right; reflexivity|split; [left; reflexivity|right; reflexivity]].
  - intros ([H|H] & _); discriminate.
Qed.

(** A program that stops, says rightly what does not fit; and it never stops for a plugin that belongs to it. *)
Theorem C101_complaint p v c : initialize_global p v = Stops c -> right_complaint p v c.
Proof.
  unfold initialize_global. destruct (b_trace p); [|discriminate]. unfold check_version, lf_assert. destruct (b_ndebug p) eqn:N; [discriminate|].
  destruct (is (v_single_threaded v) _) eqn:A.
  - destruct (is (v_debug v) _) eqn:B.
    + destruct (_ || _)%bool eqn:L; [discriminate|]. intros [= <-]. cbn [right_complaint]. split; [reflexivity|]. exact (not_true _ _ (level_ok p v) L).
    + intros [= <-]. cbn [right_complaint]. split; [exact N|]. unfold type_suits. rewrite N. exact (not_true _ _ (is_suits _ _) B).
  - intros [= <-]. pose proof (not_true _ _ (is_suits _ _) A) as X. destruct (b_single_threaded p) eqn:Th; cbn [right_complaint]; (split; [exact Th|]); unfold threads_suit; rewrite Th; exact X.
Qed.
Example C101_complaint_ex : initialize_global (mkBuild false false 2 true) (mkVersion TFalse TFalse 2 None) = Stops ExpectedDebug
  /\ initialize_global (mkBuild false false 2 true) (mkVersion TFalse TTrue 4 None) = Stops (ExpectedLevel 2).
Proof. split; reflexivity. Qed.

(** The plugin of this repository, built like the program, is accepted with one thread and with many. *)
Theorem C101_own p : initialize_global p (plugin_version (b_ndebug p) (b_log_level p)) = Goes.
Proof.
  unfold initialize_global, check_version, lf_assert, plugin_version. cbn [v_single_threaded v_debug v_log_level is]. destruct (b_trace p); [|reflexivity]. destruct (b_ndebug p); [reflexivity|]. cbn. now rewrite Z.eqb_refl.
Qed.
Example C101_own_ex : initialize_global (mkBuild true false 4 true) (plugin_version false 4) = Goes /\ initialize_global (mkBuild true false 4 true) (plugin_version false 3) <> Goes.
Proof. split; [reflexivity|discriminate]. Qed.

(** The checks are assertions, which a release build leaves out: a program for release starts with every plugin. *)
Theorem C101_release_refuted p : b_ndebug p = true -> (forall v, initialize_global p v = Goes) /\ exists v, ~ belongs p v.
Proof.
  intros N. split.
  - intros v. unfold initialize_global, check_version, lf_assert. rewrite N. now destruct (b_trace p).
  - exists (mkVersion TDoesNotMatter TTrue (b_log_level p) None). intros (_ & Q & _). unfold type_suits, suits in Q. rewrite N in Q. cbn in Q. destruct Q; discriminate.
Qed.
Example C101_release_ex : let p := mkBuild false true 2 true in let v := mkVersion TTrue TTrue 0 (Some 1) in b_ndebug p = true /\ ~ threads_suit p v /\ ~ type_suits p v /\ ~ level_suits p v /\ initialize_global p v = Goes.
Proof. cbn. split; [reflexivity|]. split; [intros [H|H]; discriminate|]. split; [intros [H|H]; discriminate|]. split; [intros [H|H]; discriminate|reflexivity]. Qed.

(** The version of the core for which a plugin was built is never compared. *)
Theorem C101_core_refuted p v n : initialize_global p (mkVersion (v_single_threaded v) (v_debug v) (v_log_level v) n) = initialize_global p v.
Proof. reflexivity. Qed.
Example C101_core_ex : initialize_global (mkBuild false false 2 true) (mkVersion TFalse TTrue 2 (Some 1)) = Goes /\ initialize_global (mkBuild false false 2 true) (mkVersion TFalse TTrue 2 (Some 2)) = Goes.
Proof. split; reflexivity. Qed.

(** The plugin that the script of the repository builds is refused by every program with checks that is not built for level 4 (debug). *)
Theorem C101_script_refuted p : b_trace p = true -> b_ndebug p = false -> b_log_level p <> 4 -> initialize_global p build_sh = Stops (ExpectedLevel (b_log_level p)).
Proof.
  intros T N L. unfold initialize_global, check_version, lf_assert, build_sh, plugin_version. rewrite T, N. cbn [v_single_threaded v_debug v_log_level is negb].
  destruct (Z.eqb_spec 4 (b_log_level p)) as [X|X]; [congruence|]. reflexivity.
Qed.
Example C101_script_ex : let p := mkBuild false false 2 true in b_trace p = true /\ b_ndebug p = false /\ b_log_level p <> 4.
Proof. cbn. repeat split. discriminate. Qed.

Print Assumptions C101_starts_partial.
Print Assumptions C101_complaint.
Print Assumptions C101_own.
Print Assumptions C101_release_refuted.
Print Assumptions C101_core_refuted.
Print Assumptions C101_script_refuted.
