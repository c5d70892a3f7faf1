(** The command line of anim_pipeline: src/anim_pipeline/anim_pipeline_main.cpp and the
    defaults of src/anim_pipeline/anim_pipeline.cpp. Functions of other libraries (atof,
    atoi, the names of axes and units, file names) are parameters. Logging is left out. *)
From Coq Require Export String Ascii.
From Verif Require Export RBase AngleModel.

(** fplutil's LogLevel, of which these are used. *)
Inductive log_level := LogVerbose | LogInfo | LogImportant | LogWarning.
(** anim_pipeline.h:23 (RepeatPreference) *)
Inductive repeat_preference := RepeatIfRepeatable | AlwaysRepeat | NeverRepeat.
(** anim_pipeline.h:25-44 (Tolerances), 46-62 (AnimPipelineArgs) *)
Record tolerances := Tolerances { t_scale : R; t_rotate : R; t_translate : R; t_angle : R; t_repeat_angle : R }.
Record pipeline_args := Args {
  fbx_file : string; output_file : string; level : log_level; tols : tolerances; repeat_pref : repeat_preference;
  stagger : bool; preserve_start : bool; roots_only : bool; no_uniform : bool; axis_system : Z; unit_scale : R; debug_time : Z
}.
(** anim_pipeline.cpp:56-76 (Tolerances), 560-571 (AnimPipelineArgs); kUnspecifiedAxisSystem
    of fplutil is taken for -1. *)
Definition tolerances_default : tolerances := Tolerances (5 / 1000) (873 / 100000) (1 / 100) (873 / 100000) (1745 / 10000).
Definition args_default : pipeline_args := Args "" "" LogWarning tolerances_default RepeatIfRepeatable false false false false (-1) (-1) (-1).

Definition with_fbx (a : pipeline_args) f := Args f (output_file a) (level a) (tols a) (repeat_pref a) (stagger a) (preserve_start a) (roots_only a) (no_uniform a) (axis_system a) (unit_scale a) (debug_time a).
Definition with_output (a : pipeline_args) f := Args (fbx_file a) f (level a) (tols a) (repeat_pref a) (stagger a) (preserve_start a) (roots_only a) (no_uniform a) (axis_system a) (unit_scale a) (debug_time a).
Definition with_level (a : pipeline_args) l := Args (fbx_file a) (output_file a) l (tols a) (repeat_pref a) (stagger a) (preserve_start a) (roots_only a) (no_uniform a) (axis_system a) (unit_scale a) (debug_time a).
Definition with_tols (a : pipeline_args) t := Args (fbx_file a) (output_file a) (level a) t (repeat_pref a) (stagger a) (preserve_start a) (roots_only a) (no_uniform a) (axis_system a) (unit_scale a) (debug_time a).
Definition with_repeat (a : pipeline_args) r := Args (fbx_file a) (output_file a) (level a) (tols a) r (stagger a) (preserve_start a) (roots_only a) (no_uniform a) (axis_system a) (unit_scale a) (debug_time a).
Definition with_stagger (a : pipeline_args) := Args (fbx_file a) (output_file a) (level a) (tols a) (repeat_pref a) true (preserve_start a) (roots_only a) (no_uniform a) (axis_system a) (unit_scale a) (debug_time a).
Definition with_start (a : pipeline_args) := Args (fbx_file a) (output_file a) (level a) (tols a) (repeat_pref a) (stagger a) true (roots_only a) (no_uniform a) (axis_system a) (unit_scale a) (debug_time a).
Definition with_roots (a : pipeline_args) := Args (fbx_file a) (output_file a) (level a) (tols a) (repeat_pref a) (stagger a) (preserve_start a) true (no_uniform a) (axis_system a) (unit_scale a) (debug_time a).
Definition with_no_uniform (a : pipeline_args) := Args (fbx_file a) (output_file a) (level a) (tols a) (repeat_pref a) (stagger a) (preserve_start a) (roots_only a) true (axis_system a) (unit_scale a) (debug_time a).
Definition with_axes (a : pipeline_args) x := Args (fbx_file a) (output_file a) (level a) (tols a) (repeat_pref a) (stagger a) (preserve_start a) (roots_only a) (no_uniform a) x (unit_scale a) (debug_time a).
Definition with_unit (a : pipeline_args) u := Args (fbx_file a) (output_file a) (level a) (tols a) (repeat_pref a) (stagger a) (preserve_start a) (roots_only a) (no_uniform a) (axis_system a) u (debug_time a).
Definition with_debug (a : pipeline_args) t := Args (fbx_file a) (output_file a) (level a) (tols a) (repeat_pref a) (stagger a) (preserve_start a) (roots_only a) (no_uniform a) (axis_system a) (unit_scale a) t.
Definition set_scale (t : tolerances) x := Tolerances x (t_rotate t) (t_translate t) (t_angle t) (t_repeat_angle t).
Definition set_rotate (t : tolerances) x := Tolerances (t_scale t) x (t_translate t) (t_angle t) (t_repeat_angle t).
Definition set_translate (t : tolerances) x := Tolerances (t_scale t) (t_rotate t) x (t_angle t) (t_repeat_angle t).
Definition set_angle (t : tolerances) x := Tolerances (t_scale t) (t_rotate t) (t_translate t) x (t_repeat_angle t).

(** The functions of libc and fplutil that are called. *)
Record library := Library { atof : string -> R; atoi : string -> Z; axis_from_name : string -> Z; unit_from_name : string -> R; remove_extension : string -> string }.

Definition is (a s t : string) : bool := (String.eqb a s || String.eqb a t)%bool.
Definition same_preference (a b : repeat_preference) : bool :=
  match a, b with RepeatIfRepeatable, RepeatIfRepeatable | AlwaysRepeat, AlwaysRepeat | NeverRepeat, NeverRepeat => true | _, _ => false end.

(** anim_pipeline_main.cpp:145-279, the loop over argv[1] .. argv[argc - 2], of which [opts]
    is what is left; the state is [args] and [valid_args]. A failed assert of FromDegrees is
    [None]. *)
Fixpoint parse_switches (l : library) (opts : list string) (a : pipeline_args) (valid : bool) {struct opts} : option (pipeline_args * bool) :=
  match opts with
  | [] => Some (a, valid)
  | arg :: rest =>
      if is arg "-v" "--verbose" then parse_switches l rest (with_level a LogVerbose) valid
      else if is arg "-d" "--details" then parse_switches l rest (with_level a LogImportant) valid
      else if is arg "-i" "--info" then parse_switches l rest (with_level a LogInfo) valid
      else if is arg "-o" "--out" then
        match rest with
        | v :: rest' => parse_switches l rest' (with_output a v) valid
        | [] => parse_switches l rest a false
        end
      else if is arg "-st" "--scale" then
        match rest with
        | v :: rest' => let x := atof l v in parse_switches l rest' (with_tols a (set_scale (tols a) x)) (if Rleb x 0 then false else valid)
        | [] => parse_switches l rest a false
        end
      else if is arg "-rt" "--rotate" then
        match rest with
        | v :: rest' =>
            let d := atof l v in
            if (Rleb d 0 || Rltb 180 d)%bool then parse_switches l rest a false
            else x <- from_degrees d ;; parse_switches l rest' (with_tols a (set_rotate (tols a) x)) valid
        | [] => parse_switches l rest a false
        end
      else if is arg "-tt" "--translate" then
        match rest with
        | v :: rest' => let x := atof l v in parse_switches l rest' (with_tols a (set_translate (tols a) x)) (if Rleb x 0 then false else valid)
        | [] => parse_switches l rest a false
        end
      else if is arg "-at" "--angle" then
        match rest with
        | v :: rest' =>
            let d := atof l v in
            if (Rleb d 0 || Rltb 90 d)%bool then parse_switches l rest' a false
            else x <- from_degrees d ;; parse_switches l rest' (with_tols a (set_angle (tols a) x)) valid
        | [] => parse_switches l rest a false
        end
      else if is arg "--repeat" "--norepeat" then
        let p := if String.eqb arg "--repeat" then AlwaysRepeat else NeverRepeat in
        if (negb (same_preference (repeat_pref a) RepeatIfRepeatable) && negb (same_preference (repeat_pref a) p))%bool then parse_switches l rest a false
        else parse_switches l rest (with_repeat a p) valid
      else if String.eqb arg "--nouniformscale" then parse_switches l rest (with_no_uniform a) valid
      else if is arg "--stagger" "--stagger_end_times" then parse_switches l rest (with_stagger a) valid
      else if is arg "--start" "--preserve_start_time" then parse_switches l rest (with_start a) valid
      else if is arg "-a" "--axes" then
        match rest with
        | v :: rest' => let x := axis_from_name l v in parse_switches l rest' (with_axes a x) (0 <=? x)%Z
        | [] => parse_switches l rest a false
        end
      else if is arg "-u" "--unit" then
        match rest with
        | v :: rest' => let x := unit_from_name l v in parse_switches l rest' (with_unit a x) (Rltb 0 x)
        | [] => parse_switches l rest a false
        end
      else if is arg "--roots" "--root_bones_only" then parse_switches l rest (with_roots a) valid
      else if String.eqb arg "--debug_time" then
        match rest with
        | v :: rest' => let x := atoi l v in parse_switches l rest' (with_level (with_debug a x) LogInfo) (if (x <? 0)%Z then false else valid)
        | [] => parse_switches l rest a false
        end
      else parse_switches l rest a false
  end.

(** schemas/anim.fbs:98 (file_extension) *)
Definition kExtension : string := "motiveanim".
(** anim_pipeline_main.cpp:137-143: the file name is not empty and no switch. *)
Definition valid_file (f : string) : bool := match f with EmptyString => false | String c _ => negb (Ascii.eqb c "-"%char) end.
(** anim_pipeline_main.cpp:126-286 (ParseAnimPipelineArgs), for arguments after the
    program's name: the switches [opts] and the last one, if any. *)
Definition parse_args (l : library) (argv : option (list string * string)) : option (pipeline_args * bool) :=
  match argv with
  | None => Some (args_default, false)
  | Some (opts, file) =>
      parse_switches l opts (with_output (with_fbx args_default file) (remove_extension l file ++ "." ++ kExtension)%string) (valid_file file)
  end.
