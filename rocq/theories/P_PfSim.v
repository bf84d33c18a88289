(** C69: histories of the integral gravity and magnetic simulations.  [run e sim ops]
    lists the answers to a sequence of questions, [expected] the answers computed
    from scratch for the survey, magnetization and model of each question. *)
From Verif Require Import PfSim SpecPfSim PfFacts PfFacts2 PfFacts3 PfFacts4 VecDeriv PfSimFacts PfSimFacts2 PfSimFacts3 PfSimFacts4.
Local Open Scope R_scope.

(** Whatever was asked before, with either engine and every way of storing the
    sensitivities, fields, Jvec, Jtvec, getJ and getJtJdiag answer for the model given
    to them.  For amplitude data the models asked about are equal, or different arrays
    that are not close; the survey and the magnetization stay; a geoana simulation that
    stores on disk starts without a file. *)
Theorem C69_history_partial (Cmp : Type) (e : env Cmp) eng sto amp k s file ops : env_ok e eng amp k s ->
  (eng = Geoana -> sto = Disk -> file = None) -> Forall (fits e eng amp k s sto) ops -> (amp = true -> well_separated ops) ->
  run e (new eng sto amp s k file) ops = map (expected e eng amp k s) ops.
Proof. intros OK. exact (history_ok e eng sto amp k s OK file ops). Qed.
Print Assumptions C69_history_partial.
Example C69_history_ex : env_ok two_cell Choclo true 0 vector_survey /\
  Forall (fits two_cell Choclo true 0 vector_survey Ram) three_questions /\ well_separated three_questions.
Proof. split; [exact (two_ok Choclo 0)|]. split; [exact three_fit|exact three_separated]. Qed.

(** The sensitivity matrix is the derivative of the data, amplitudes included where
    no amplitude is zero, and Jtvec is the adjoint of Jvec. *)
Theorem C69_derivative (Cmp : Type) (e : env Cmp) eng amp k s m : env_ok e eng amp k s -> length m = e_nP e ->
  no_zero_amplitude e eng amp k s m -> has_jacobian (e_nP e) (e_nC e) (e_phys e) m (mv (e_physJ e m)) ->
  has_jacobian (e_nP e) (n_data amp s) (predicted e eng amp k s) m (mv (sensitivity e eng amp k s m)).
Proof. intros OK. exact (predicted_deriv e eng amp k s OK m). Qed.
Print Assumptions C69_derivative.
Example C69_derivative_ex : no_zero_amplitude two_cell Choclo true 0 vector_survey [3; 4] /\
  has_jacobian 2 2 (e_phys two_cell) [3; 4] (mv (e_physJ two_cell [3; 4])).
Proof. split; [apply two_nonzero; lra|exact (two_phys_deriv [3; 4] eq_refl)]. Qed.
Theorem C69_adjoint (Cmp : Type) (e : env Cmp) eng amp k s m v w : env_ok e eng amp k s ->
  length m = e_nP e -> length v = e_nP e -> length w = n_data amp s ->
  dot w (mv (sensitivity e eng amp k s m) v) = dot (mtv (e_nP e) (sensitivity e eng amp k s m) w) v.
Proof. intros OK. exact (sens_adjoint e eng amp k s OK m v w). Qed.
Print Assumptions C69_adjoint.
Example C69_adjoint_ex : length [1; 2] = e_nP two_cell /\ length [7] = n_data true vector_survey.
Proof. split; reflexivity. Qed.

(** Without stored sensitivities the fields are also right after the survey, the
    magnetization or the kind of data changed. *)
Theorem C69_forward_only (Cmp : Type) (e : env Cmp) eng amp k s file ops m (sim := at_end e (new eng ForwardOnly amp s k file) ops) :
  length (snd m) = e_nP e -> env_ok e (s_engine sim) (s_amp sim) (s_M sim) (s_survey sim) ->
  snd (step e sim (OFields m)) = expected e (s_engine sim) (s_amp sim) (s_M sim) (s_survey sim) (OFields m).
Proof. exact (forward_ok e eng amp k s file ops m). Qed.
Print Assumptions C69_forward_only.
Example C69_forward_only_ex : let sim := at_end one_cell (new Geoana ForwardOnly false at_origin 0 None) [OFields (0%nat, [1]); OSurvey at_east; OMag 2] in
  s_survey sim = at_east /\ s_M sim = 2%nat /\ env_ok one_cell (s_engine sim) (s_amp sim) (s_M sim) (s_survey sim).
Proof. split; [reflexivity|]. split; [reflexivity|exact (one_ok Geoana 2 at_east)]. Qed.

(** With stored sensitivities they are not: the matrix of the first survey is kept. *)
Theorem C69_survey_refuted :
  ~ (forall (Cmp : Type) (e : env Cmp) eng sto s s' k m, env_ok e eng false k s -> env_ok e eng false k s' -> length (snd m) = e_nP e ->
       nth 2 (run e (new eng sto false s k None) [OFields m; OSurvey s'; OFields m]) (Ok OutNone) = expected e eng false k s' (OFields m)).
Proof. intros H. exact (bad_survey (H unit one_cell Geoana Ram at_origin at_east 0%nat (0%nat, [1]) (one_ok _ _ _) (one_ok _ _ _) eq_refl)). Qed.
Print Assumptions C69_survey_refuted.
Theorem C69_magnetization_refuted :
  ~ (forall (Cmp : Type) (e : env Cmp) eng sto s k k' m, env_ok e eng false k s -> env_ok e eng false k' s -> length (snd m) = e_nP e ->
       nth 2 (run e (new eng sto false s k None) [OFields m; OMag k'; OFields m]) (Ok OutNone) = expected e eng false k' s (OFields m)).
Proof. intros H. exact (bad_mag (H unit one_cell Geoana Ram at_origin 0%nat 1%nat (0%nat, [1]) (one_ok _ _ _) (one_ok _ _ _) eq_refl)). Qed.
Print Assumptions C69_magnetization_refuted.
(** A file of the right shape left by another run is taken for the sensitivities. *)
Theorem C69_old_file_refuted :
  ~ (forall (Cmp : Type) (e : env Cmp) s k file m, env_ok e Geoana false k s -> length (snd m) = e_nP e ->
       nth 0 (run e (new Geoana Disk false s k file) [OFields m]) (Ok OutNone) = expected e Geoana false k s (OFields m)).
Proof. intros H. exact (bad_file (H unit one_cell at_origin 0%nat (Some [[5]]) (0%nat, [1]) (one_ok _ _ _) eq_refl)). Qed.
Print Assumptions C69_old_file_refuted.
(** A second simulation storing at the same path changes the answers of the first. *)
Theorem C69_shared_file_refuted :
  ~ (forall (Cmp : Type) (e : env Cmp) s k M m, env_ok e Choclo false k s -> length (snd m) = e_nP e ->
       nth 2 (run e (new Choclo Disk false s k None) [OFields m; OFile M; OFields m]) (Ok OutNone) = expected e Choclo false k s (OFields m)).
Proof. intros H. exact (bad_shared (H unit one_cell at_origin 0%nat [[5]] (0%nat, [1]) (one_ok _ _ _) eq_refl)). Qed.
Print Assumptions C69_shared_file_refuted.
(** Amplitude data: the unit vectors of the model before are used for one np.allclose to it,
    for the same array with new values, and after the kind of data was switched to and fro. *)
Theorem C69_close_models_refuted :
  ~ (forall (Cmp : Type) (e : env Cmp) eng sto s k m m' v, env_ok e eng true k s -> fst m <> fst m' ->
       Forall (fits e eng true k s sto) [OJvec m v; OJvec m' v] ->
       nth 1 (run e (new eng sto true s k None) [OJvec m v; OJvec m' v]) (Ok OutNone) = expected e eng true k s (OJvec m' v)).
Proof.
  intros H. refine (bad_close (H nat two_cell Geoana Ram vector_survey 0%nat (0%nat, [nano; 0]) (1%nat, [0; nano]) [1; 0] (two_ok _ _) _ _)); [discriminate|].
  exact (jvecs_fit 0 1 nano nano_pos).
Qed.
Print Assumptions C69_close_models_refuted.
Theorem C69_model_in_place_refuted :
  ~ (forall (Cmp : Type) (e : env Cmp) eng sto s k m m' v, env_ok e eng true k s -> allclose (snd m) (snd m') = Ok false ->
       Forall (fits e eng true k s sto) [OJvec m v; OJvec m' v] ->
       nth 1 (run e (new eng sto true s k None) [OJvec m v; OJvec m' v]) (Ok OutNone) = expected e eng true k s (OJvec m' v)).
Proof.
  intros H. refine (bad_inplace (H nat two_cell Geoana Ram vector_survey 0%nat (1%nat, [1; 0]) (1%nat, [0; 1]) [1; 0] (two_ok _ _) far _)).
  exact (jvecs_fit _ _ 1 Rlt_0_1).
Qed.
Print Assumptions C69_model_in_place_refuted.
Theorem C69_amplitude_switch_refuted :
  ~ (forall (Cmp : Type) (e : env Cmp) eng sto s k m m' v, env_ok e eng true k s -> fst m <> fst m' -> allclose (snd m) (snd m') = Ok false ->
       Forall (fits e eng true k s sto) [OJvec m v; OJvec m' v] ->
       nth 4 (run e (new eng sto true s k None) [OJvec m v; OAmp false; OFields m'; OAmp true; OJvec m' v]) (Ok OutNone) = expected e eng true k s (OJvec m' v)).
Proof.
  intros H. refine (bad_toggle (H nat two_cell Geoana Ram vector_survey 0%nat (0%nat, [1; 0]) (1%nat, [0; 1]) [1; 0] (two_ok _ _) _ far _)); [discriminate|].
  exact (jvecs_fit _ _ 1 Rlt_0_1).
Qed.
Print Assumptions C69_amplitude_switch_refuted.
(** Amplitude data without weights: the default weights have three times too many entries. *)
Theorem C69_default_weights_refuted :
  ~ (forall (Cmp : Type) (e : env Cmp) eng s k m, env_ok e eng true k s -> length (snd m) = e_nP e ->
       no_zero_amplitude e eng true k s (snd m) -> one_per_column (e_physJ e (snd m)) ->
       nth 0 (run e (new eng Ram true s k None) [ODiag m None]) (Ok OutNone)
       = Ok (OutV (weighted_diagonal (e_nP e) (sensitivity e eng true k s (snd m)) (repeat 1 (n_data true s))))).
Proof.
  intros H. refine (bad_none_ne _ (H nat two_cell Geoana vector_survey 0%nat (0%nat, [1; 0]) (two_ok _ _) eq_refl _ identity_one)). exact (two_nonzero' 1 0 one_zero).
Qed.
Print Assumptions C69_default_weights_refuted.
(** A parameter that feeds two cells: the diagonal misses the mixed terms. *)
Theorem C69_diagonal_refuted :
  ~ (forall (Cmp : Type) (e : env Cmp) eng s k m w, env_ok e eng false k s -> length (snd m) = e_nP e -> length w = n_data false s ->
       nth 0 (run e (new eng Ram false s k None) [ODiag m (Some w)]) (Ok OutNone) = expected e eng false k s (ODiag m (Some w))).
Proof. intros H. exact (bad_diag (H nat spread_cell Geoana [([0%nat], [origin])] 0%nat (0%nat, [1]) [1] (spread_ok _ _ _) eq_refl eq_refl)). Qed.
Print Assumptions C69_diagonal_refuted.
(** geoana without stored sensitivities refuses every derivative. *)
Theorem C69_not_implemented (Cmp : Type) (e : env Cmp) amp k s file m v w W : length (snd m) = e_nP e -> length v = e_nP e ->
  forall o, In o [OJvec m v; OJtvec m w; OGetJ m; ODiag m W] -> snd (step e (new Geoana ForwardOnly amp s k file) o) = Err NotImplementedError.
Proof.
  intros L Lv o [<-|[<-|[<-|[<-|[]]]]]; [exact (geoana_forward_only e amp k s file m v L Lv)|exact (geoana_forward_only_t e amp k s file m w L)
    |exact (geoana_forward_only_J e amp k s file m L)|exact (geoana_forward_only_D e amp k s file m W L)].
Qed.
Print Assumptions C69_not_implemented.
Example C69_not_implemented_ex : snd (step one_cell (new Geoana ForwardOnly false at_origin 0 None) (OGetJ (0%nat, [1]))) = Err NotImplementedError.
Proof. reflexivity. Qed.
