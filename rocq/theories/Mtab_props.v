(** C132: the tables do_metadetect returns, with their named columns. *)
From Coq Require Import ZArith QArith List String Bool.
From Verif Require Import Base Arr Median Flags_model Detect_model Summ_model Coadd_model Wavg_model
  Joint_model Conf_model Mdet_model Mrun_model Mrun_spec Mrun_props Mtab_model Mtab_spec Mtab_proofs.
Import ListNotations.
Local Open Scope string_scope.
Local Open Scope Z_scope.

(** The program with real tables (numpy structured arrays with named fields,
    combined, extended and stacked) does what the program with rows does: it
    raises the same exceptions, and its tables show those rows, under the
    prefixes of the configured fitters. *)
Theorem C132_tables : forall x c main sbc keyf dep dbc md ps,
  all_one_shape main dep -> metacal_ok x c -> same_bands main dep ->
  construct (st_conf c) (zlen main) (has keyf) (has dep) sbc dbc = Ok md -> Forall2 prefix (md_fitters md) ps ->
  do_metadetect_tables x c main sbc keyf dep dbc =
    (do r <- do_metadetect x c main sbc keyf dep dbc; Ok (option_map (shown_result ps) r)).
Proof. intros x c main sbc keyf dep dbc md ps H1 H2 H3 H4 H5. exact (proj1 (tables_shown x c main sbc keyf dep dbc md ps H1 H2 H3 H4 H5)). Qed.
Print Assumptions C132_tables.

(** Every table has at least one row, the same column names in the same order,
    all different, and as many values in each column as it has rows. *)
Theorem C132_columns : forall x c main sbc keyf dep dbc md ps ts t tb,
  all_one_shape main dep -> metacal_ok x c -> same_bands main dep ->
  construct (st_conf c) (zlen main) (has keyf) (has dep) sbc dbc = Ok md -> Forall2 prefix (md_fitters md) ps ->
  do_metadetect_tables x c main sbc keyf dep dbc = Ok (Some ts) -> In (t, Some tb) ts ->
  (0 < t_n tb)%nat /\ Joint_model.names tb = map fst (all_columns ps) /\ NoDup (Joint_model.names tb) /\
  (forall n vs, In (n, vs) (t_cols tb) -> List.length vs = t_n tb).
Proof. intros x c main sbc keyf dep dbc md ps ts t tb H1 H2 H3 H4 H5. exact (run_columns x c main sbc keyf dep dbc md ps H1 H2 H3 H4 H5 ts t tb). Qed.
Print Assumptions C132_columns.

(** A column has the same type in all rows of all tables of a result, so that
    the tables of different shears can be stacked. *)
Theorem C132_types : forall x c main sbc keyf dep dbc md ps ts t tb t' tb' n vs vs' v v',
  all_one_shape main dep -> metacal_ok x c -> same_bands main dep ->
  construct (st_conf c) (zlen main) (has keyf) (has dep) sbc dbc = Ok md -> Forall2 prefix (md_fitters md) ps ->
  do_metadetect_tables x c main sbc keyf dep dbc = Ok (Some ts) -> In (t, Some tb) ts -> In (t', Some tb') ts ->
  In (n, vs) (t_cols tb) -> In (n, vs') (t_cols tb') -> In v vs -> In v' vs' ->
  cell_type v = cell_type v'.
Proof.
  intros x c main sbc keyf dep dbc md ps ts t tb t' tb' n vs vs' v v' H1 H2 H3 H4 H5.
  exact (run_types_alike x c main sbc keyf dep dbc md ps H1 H2 H3 H4 H5 ts t tb t' tb' n vs vs' v v').
Qed.
Print Assumptions C132_types.

(** What a cell shows: in the columns of a fitter's prefix, that fitter's values
    for the object of that row; in "shear_bands" the bands of the first fitter;
    in the other columns the position, mask and PSF values of that row. *)
Theorem C132_read : forall x c main sbc keyf dep dbc md ps ts t tb,
  all_one_shape main dep -> metacal_ok x c -> same_bands main dep ->
  construct (st_conf c) (zlen main) (has keyf) (has dep) sbc dbc = Ok md -> Forall2 prefix (md_fitters md) ps ->
  do_metadetect_tables x c main sbc keyf dep dbc = Ok (Some ts) -> In (t, Some tb) ts ->
  exists r rows, do_metadetect x c main sbc keyf dep dbc = Ok (Some r) /\ In (t, Some rows) r /\ t_n tb = List.length rows /\
  (forall k p n h, nth_error ps k = Some p -> In (n, of_fit k h) (fit_columns k p) -> forall i v,
     read tb n i v <-> exists dr f, nth_error rows i = Some dr /\ nth_error (r_fits dr) k = Some f /\ v = h f) /\
  (forall i v, read tb "shear_bands" i v <-> exists dr f, nth_error rows i = Some dr /\ hd_error (r_fits dr) = Some f /\ v = CText (o_shear_bands f)) /\
  (forall n h, In (n, of_extra h) common_columns -> forall i v,
     read tb n i v <-> exists dr, nth_error rows i = Some dr /\ v = h (r_extra dr)).
Proof. intros x c main sbc keyf dep dbc md ps ts t tb H1 H2 H3 H4 H5. exact (run_read x c main sbc keyf dep dbc md ps H1 H2 H3 H4 H5 ts t tb). Qed.
Print Assumptions C132_read.

(** The column names of the configured fitters clash only if two fitters have the
    same prefix: no prefix followed by a quantity is another prefix followed by a
    quantity, or one of the other columns. *)
Theorem C132_distinct : forall cfg nb k d sh det md ps,
  construct cfg nb k d sh det = Ok md -> Forall2 prefix (md_fitters md) ps ->
  (NoDup (map fst (all_columns ps)) <-> NoDup ps).
Proof. intros cfg nb k d sh det md ps H1 H2. exact (all_names_nodup ps (ps_proper_of cfg nb k d sh det md ps H1 H2)). Qed.
Print Assumptions C132_distinct.

(** ** A concrete case: the two-band field of Mrun_props. *)
Definition tables6 (flags : Z) (main : mbo) (keyf : option keyfun) (dep : option colours) :=
  do_metadetect_tables third6 (settings6 flags) main (Some [[0; 1]; [1]]) keyf dep DetShear.
Definition cells6 (o : outcome (option tables)) (names : list string) : list (string * list (string * list cell)) :=
  match o with
  | Ok (Some ts) => flat_map (fun kt => match snd kt with
      | Some tb => [(fst kt, filter (fun cv => existsb (String.eqb (fst cv)) names) (t_cols tb))]
      | None => []
      end) ts
  | _ => []
  end.
Definition names6 (o : outcome (option tables)) : list (string * list string) :=
  match o with
  | Ok (Some ts) => map (fun kt => (fst kt, match snd kt with Some tb => Joint_model.names tb | None => [] end)) ts
  | _ => []
  end.
Definition six (p : string) : list string :=
  map (fun q => p ++ q) ["_flags"; "_psf_flags"; "_psf_g"; "_psf_T"; "_obj_flags"; "_s2n"; "_g"; "_g_cov"; "_T"; "_T_flags"; "_T_err";
    "_T_ratio"; "_band_flux_flags"; "_band_flux"; "_band_flux_err"].
Definition names_want : list string :=
  (six "wmom" ++ ["shear_bands"] ++ six "pgauss_reg0.50" ++
   ["sx_row"; "sx_col"; "sx_row_noshear"; "sx_col_noshear"; "ormask"; "mfrac"; "bmask"; "mfrac_img"; "ormask_noshear";
    "mfrac_noshear"; "bmask_noshear"; "det_bands"; "psfrec_flags"; "psfrec_g"; "psfrec_T"])%list.
Lemma fitters6 : forall md, construct (st_conf (settings6 0)) (zlen main6) (has (@None keyfun)) (has (@None colours)) (Some [[0; 1]; [1]]) DetShear = Ok md ->
  Forall2 prefix (md_fitters md) ["wmom"; "pgauss_reg0.50"].
Proof.
  intros md H. vm_compute in H. apply Ok_inj in H. subst md. cbn [md_fitters]. constructor; [|constructor; [|constructor]].
  - right. left. repeat split; discriminate || reflexivity.
  - right. right. split; [discriminate|]. exists (1 # 2)%Q, "0.50". split; [reflexivity|]. split; [|reflexivity].
    exists 50, "0". split; [discriminate|]. split; [split; [discriminate|intros X; discriminate X]|]. split; [reflexivity|].
    left. split; [discriminate|reflexivity].
Qed.
Example C132_example : all_one_shape main6 None /\ metacal_ok third6 (settings6 0) /\ same_bands main6 None /\
  (exists md, construct (st_conf (settings6 0)) (zlen main6) (has (@None keyfun)) (has (@None colours)) (Some [[0; 1]; [1]]) DetShear = Ok md /\
     Forall2 prefix (md_fitters md) ["wmom"; "pgauss_reg0.50"]) /\
  names6 (tables6 0 main6 None None) = [("noshear", names_want); ("1p", names_want)] /\
  cells6 (tables6 0 main6 None None) ["shear_bands"; "wmom_obj_flags"; "det_bands"] =
    [("noshear", [("wmom_obj_flags", [CInt 0; CInt 0; CInt 169869312; CInt 0; CInt 0; CInt 169869312]);
                  ("shear_bands", [CText "01"; CText "01"; CText "01"; CText "1"; CText "1"; CText "1"]);
                  ("det_bands", [CText "01"; CText "01"; CText "01"; CText "1"; CText "1"; CText "1"])]);
     ("1p", [("wmom_obj_flags", [CInt 0; CInt 0; CInt 169869312; CInt 0; CInt 0; CInt 169869312]);
             ("shear_bands", [CText "01"; CText "01"; CText "01"; CText "1"; CText "1"; CText "1"]);
             ("det_bands", [CText "01"; CText "01"; CText "01"; CText "1"; CText "1"; CText "1"])])].
Proof.
  split; [exact none_shape|]. split; [apply metacal6_ok|]. split; [intros d k m H; discriminate|]. split; [|split; vm_compute; reflexivity].
  destruct (construct (st_conf (settings6 0)) (zlen main6) (has (@None keyfun)) (has (@None colours)) (Some [[0; 1]; [1]]) DetShear) as [md|y] eqn:E;
    [|vm_compute in E; discriminate E].
  exists md. split; [reflexivity|exact (fitters6 md E)].
Qed.
