(** Settings, enums and settings files: /repo/src/main/settings.c, enum.c, types.c *)
From Coq Require Export Ascii String.
From Verif Require Import Base Num Cmp Sparse Vec Mat.
Local Open Scope Z_scope.
Local Open Scope list_scope.

(** ** Enums: /repo/src/main/enum.h:6-18; the terminating {NULL, 0} entry is the
    end of the list. *)
Record senum := { en_flags : bool; en_entries : list (string * Z) }.

(** enum_member, enum.c:7-21 *)
Fixpoint enum_member (es : list (string * Z)) (v : Z) : bool :=
  match es with
  | [] => false
  | (_, w) :: es' => if w =? v then true else enum_member es' v
  end.

(** flags_member, enum.c:23-39; [int] bit operations are those of two's complement,
    which [Z.land]/[Z.lor] implement on the represented values. *)
Definition flags_value (es : list (string * Z)) (v : Z) : Z :=
  fold_left (fun acc e => if Z.land v (snd e) =? 0 then acc else Z.lor acc (snd e)) es 0.
Definition flags_member (es : list (string * Z)) (v : Z) : bool := v =? flags_value es v.

(** sleqp_enum_member, enum.c:41-50 *)
Definition sleqp_enum_member (e : senum) (v : Z) : bool :=
  if en_flags e then flags_member (en_entries e) v else enum_member (en_entries e) v.

(** types.c:3-121, with the values of pub_types.h:51-196 *)
Definition active_enum := {| en_flags := true; en_entries :=
  [("Inactive"%string, 0); ("Lower"%string, 1); ("Upper"%string, 2)] |}.
Definition status_enum := {| en_flags := false; en_entries :=
  [("Unknown"%string, 0); ("Running"%string, 1); ("Optimal"%string, 2); ("Infeasible"%string, 3);
   ("Unbounded"%string, 4); ("AbortDeadpoint"%string, 5); ("AbortIter"%string, 6);
   ("AbortManual"%string, 7); ("AbortTime"%string, 8)] |}.
Definition deriv_check_enum := {| en_flags := true; en_entries :=
  [("Skip"%string, 0); ("FirstObj"%string, 1); ("FirstCons"%string, 2); ("SecondSimple"%string, 4);
   ("SecondObj"%string, 8); ("SecondCons"%string, 16)] |}.
Definition hess_eval_enum := {| en_flags := false; en_entries :=
  [("Exact"%string, 0); ("SR1"%string, 1); ("SimpleBFGS"%string, 2); ("DampedBFGS"%string, 3)] |}.
Definition bfgs_sizing_enum := {| en_flags := false; en_entries :=
  [("None"%string, 0); ("CenteredOL"%string, 1)] |}.
Definition steptype_enum := {| en_flags := false; en_entries :=
  [("None"%string, 0); ("Accepted"%string, 1); ("AcceptedFull"%string, 2); ("AcceptedSOC"%string, 3);
   ("Rejected"%string, 4)] |}.
Definition dual_estimation_enum := {| en_flags := false; en_entries :=
  [("LP"%string, 0); ("LSQ"%string, 1); ("Mixed"%string, 2)] |}.
Definition tr_solver_enum := {| en_flags := false; en_entries :=
  [("Trlib"%string, 0); ("CG"%string, 1); ("LSQR"%string, 2); ("Auto"%string, 3)] |}.
Definition polishing_enum := {| en_flags := false; en_entries :=
  [("None"%string, 0); ("ZeroDual"%string, 1); ("Inactive"%string, 2)] |}.
Definition parametric_cauchy_enum := {| en_flags := false; en_entries :=
  [("Disabled"%string, 0); ("Coarse"%string, 1); ("Fine"%string, 2)] |}.
Definition initial_tr_enum := {| en_flags := false; en_entries :=
  [("Narrow"%string, 0); ("Wide"%string, 1)] |}.
Definition linesearch_enum := {| en_flags := false; en_entries :=
  [("Exact"%string, 0); ("Approx"%string, 1)] |}.
Definition step_rule_enum := {| en_flags := false; en_entries :=
  [("Direct"%string, 0); ("Window"%string, 1); ("Minstep"%string, 2)] |}.
Definition aug_jac_type_enum := {| en_flags := false; en_entries :=
  [("Auto"%string, 0); ("Standard"%string, 1); ("Reduced"%string, 2); ("Direct"%string, 3)] |}.

(** ** Options: pub_settings.h:12-72; the names are the [.name] fields of
    settings.c:97-270, in the order of the C enums. *)
Definition enum_names : list string :=
  ["deriv_check"; "hess_eval"; "dual_estimation_type"; "float_warning_flags"; "float_error_flags";
   "bfgs_sizing"; "tr_solver"; "polishing_type"; "step_rule"; "linesearch"; "parametric_cauchy";
   "initial_tr_choice"; "augmented Jacobian method"]%string.
Definition int_names : list string :=
  ["num_quasi_newton_iterates"; "max_newton_iterations"; "num_threads"]%string.
Definition bool_names : list string :=
  ["perform_newton_step"; "global_penalty_resets"; "perform_soc"; "use_quadratic_model";
   "always_warm_start_lp"; "enable_restoration_phase"; "enable_preprocessor"; "lp_resolves"]%string.
Definition real_names : list string :=
  ["zero_eps"; "eps"; "obj_lower"; "deriv_perturbation"; "deriv_tol"; "cauchy_tau"; "cauchy_eta";
   "linesearch_tau"; "linesearch_eta"; "linesearch_cutoff"; "feas_tol"; "slack_tol"; "stat_tol";
   "accepted_reduction"; "deadpoint_bound"]%string.

(** SLEQP_NUM_*_SETTINGS, pub_settings.h *)
Definition num_enum : Z := 13.
Definition num_int : Z := 3.
Definition num_bool : Z := 8.
Definition num_real : Z := 15.

(** get_enum, settings.c:355-389 (NULL is [None]; an unknown option is [assert(0)]) *)
Definition get_enum (o : Z) : res (option senum) :=
  if o =? 0 then Ok (Some deriv_check_enum)
  else if o =? 1 then Ok (Some hess_eval_enum)
  else if o =? 2 then Ok (Some dual_estimation_enum)
  else if (o =? 3) || (o =? 4) then Ok None
  else if o =? 5 then Ok (Some bfgs_sizing_enum)
  else if o =? 6 then Ok (Some tr_solver_enum)
  else if o =? 7 then Ok (Some polishing_enum)
  else if o =? 8 then Ok (Some step_rule_enum)
  else if o =? 9 then Ok (Some linesearch_enum)
  else if o =? 10 then Ok (Some parametric_cauchy_enum)
  else if o =? 11 then Ok (Some initial_tr_enum)
  else if o =? 12 then Ok (Some aug_jac_type_enum)
  else Trap.

(** valid_member, settings.c:391-402 *)
Definition valid_member (o v : Z) : res bool :=
  e <- get_enum o ;; Ok (match e with None => true | Some e => sleqp_enum_member e v end).

(** OPT_VALID, settings.c:404-405 *)
Definition opt_valid (o n : Z) : bool := (0 <=? o) && (o <? n).

Section Settings.
Context {A : Type}.  (** the type of real settings, C [double] *)

(** struct SleqpSettings, settings.c:76-87 (the unused bfgs_sizing and tr_solver
    fields and the reference count are left out) *)
Record settings := { s_enum : list Z; s_int : list Z; s_bool : list bool; s_real : list A }.

Definition with_enum s l := {| s_enum := l; s_int := s_int s; s_bool := s_bool s; s_real := s_real s |}.
Definition with_int s l := {| s_enum := s_enum s; s_int := l; s_bool := s_bool s; s_real := s_real s |}.
Definition with_bool s l := {| s_enum := s_enum s; s_int := s_int s; s_bool := l; s_real := s_real s |}.
Definition with_real s l := {| s_enum := s_enum s; s_int := s_int s; s_bool := s_bool s; s_real := l |}.

(** A function that modifies the settings returns the settings it leaves behind,
    whether it succeeds or not, and its return code. *)
Definition out := (settings * res unit)%type.
Definition store {B} (s : settings) (k : settings -> list B -> settings) (r : res (list B)) : out :=
  match r with Ok l => (k s l, Ok tt) | Err c => (s, Err c) | Trap => (s, Trap) end.

(** sleqp_settings_set_real_value, settings.c:419-432 *)
Definition set_real_value (s : settings) (o : Z) (v : A) : out :=
  if negb (opt_valid o num_real) then (s, Err EIllegalArg) else store s with_real (arr_set (s_real s) o v).
(** sleqp_settings_set_int_value, settings.c:515-528 *)
Definition set_int_value (s : settings) (o v : Z) : out :=
  if negb (opt_valid o num_int) then (s, Err EIllegalArg) else store s with_int (arr_set (s_int s) o v).
(** sleqp_settings_set_bool_value, settings.c:542-555 *)
Definition set_bool_value (s : settings) (o : Z) (v : bool) : out :=
  if negb (opt_valid o num_bool) then (s, Err EIllegalArg) else store s with_bool (arr_set (s_bool s) o v).
(** sleqp_settings_set_enum_value, settings.c:446-467 *)
Definition set_enum_value (s : settings) (o v : Z) : out :=
  if negb (opt_valid o num_enum) then (s, Err EIllegalArg) else
  match valid_member o v with
  | Ok true => store s with_enum (arr_set (s_enum s) o v)
  | Ok false => (s, Err EIllegalArg)
  | Err c => (s, Err c)
  | Trap => (s, Trap)
  end.

(** The entry loop of settings.c:487-495 and 650-658: the first entry whose name
    equals the string. *)
Fixpoint find_entry (es : list (string * Z)) (name : string) : option Z :=
  match es with
  | [] => None
  | (n, v) :: es' => if String.eqb n name then Some v else find_entry es' name
  end.

(** sleqp_settings_set_enum_value_from_string, settings.c:469-501 *)
Definition set_enum_value_from_string (s : settings) (o : Z) (value : string) : out :=
  if negb (opt_valid o num_enum) then (s, Err EIllegalArg) else
  match get_enum o with
  | Ok None => (s, Err EIllegalArg)
  | Ok (Some e) =>
    match find_entry (en_entries e) value with
    | Some v => store s with_enum (arr_set (s_enum s) o v)
    | None => (s, Err EIllegalArg)
    end
  | Err c => (s, Err c)
  | Trap => (s, Trap)
  end.

(** Getters.  For an invalid option sleqp_raise (pub_error.h:38-48) makes them record
    an error and return SLEQP_ERROR = -1 converted to the result type; the model
    reports the recorded error.  settings.c:407-417, 434-444, 503-513, 530-540 *)
Definition real_value (s : settings) (o : Z) : res A :=
  if negb (opt_valid o num_real) then Err EIllegalArg else arr_get (s_real s) o.
Definition enum_value (s : settings) (o : Z) : res Z :=
  if negb (opt_valid o num_enum) then Err EIllegalArg else arr_get (s_enum s) o.
Definition int_value (s : settings) (o : Z) : res Z :=
  if negb (opt_valid o num_int) then Err EIllegalArg else arr_get (s_int s) o.
Definition bool_value (s : settings) (o : Z) : res bool :=
  if negb (opt_valid o num_bool) then Err EIllegalArg else arr_get (s_bool s) o.

(** sleqp_settings_create, settings.c:292-353, defaults 21-62; the two floating point
    flag defaults are those of <fenv.h> on x86-64 (FE_ALL_EXCEPT = 61,
    FE_OVERFLOW | FE_DIVBYZERO | FE_INVALID = 13). *)
Definition settings_create (reals : list A) : settings :=
  {| s_enum := [0; 0; 1; 61; 13; 1; 3; 1; 0; 1; 0; 0; 0];
     s_int := [5; 100; -1];
     s_bool := [true; true; true; true; true; true; false; true];
     s_real := reals |}.

(** ** Settings files *)
Local Open Scope char_scope.

(** isspace in the C locale: space, \t, \n, \v, \f, \r.  Characters above 127 are
    taken not to be spaces (isspace of a negative [char] is undefined in ISO C and
    false in glibc). *)
Definition isspace (c : ascii) : bool :=
  let n := N_of_ascii c in ((n =? 32) || ((9 <=? n) && (n <=? 13)))%N.
Definition newline : ascii := "010".
Definition nul : ascii := "000".

Fixpoint take_while {B} (p : B -> bool) (l : list B) : list B :=
  match l with [] => [] | c :: l' => if p c then c :: take_while p l' else [] end.
Fixpoint drop_while {B} (p : B -> bool) (l : list B) : list B :=
  match l with [] => [] | c :: l' => if p c then drop_while p l' else l end.

(** trim, settings.c:560-582: the loop over leading spaces only advances the local
    pointer, so that leading spaces stay in the buffer; trailing ones are cut off,
    except when there is nothing but spaces. *)
Definition trim (b : list ascii) : list ascii :=
  let s := drop_while isspace b in
  match s with
  | [] => b
  | _ => take_while isspace b ++ rev (drop_while isspace (rev s))
  end.

(** extract_key_value, settings.c:584-644; [None]: *content == false.  The pointers
    tested by [!begin] are never null, so *error stays false.  The assertion is the
    one of line 618. *)
Definition nonspace (c : ascii) : bool := negb (isspace c).
Definition extract_key_value (buffer : list ascii) : res (option (list ascii * list ascii)) :=
  let b := trim buffer in
  match b with
  | [] => Ok None
  | c :: _ =>
    if Ascii.eqb c "#" then Ok None else
    let key := take_while nonspace b in
    let r := drop_while nonspace b in
    match r with
    | [] => Trap
    | _ => Ok (Some (key, take_while nonspace (drop_while isspace r)))
    end
  end.

(** strtol with base 10: optional spaces and sign, digits; the result saturates at
    the bounds of a 64 bit [long].  Without digits nothing is consumed. *)
Definition isdigit (c : ascii) : bool := let n := N_of_ascii c in ((48 <=? n) && (n <=? 57))%N.
Definition digit (c : ascii) : Z := Z.of_N (N_of_ascii c) - 48.
Definition digits_val (ds : list ascii) : Z := fold_left (fun a c => 10 * a + digit c) ds 0.
Definition clamp64 (z : Z) : Z := Z.max (- 2 ^ 63) (Z.min (2 ^ 63 - 1) z).
Definition strtol (v : list ascii) : Z * list ascii :=
  let b := drop_while isspace v in
  let '(neg, b') := match b with
                    | c :: b' => if Ascii.eqb c "-" then (true, b') else if Ascii.eqb c "+" then (false, b') else (false, b)
                    | [] => (false, b)
                    end in
  match take_while isdigit b' with
  | [] => (0, v)
  | ds => (clamp64 (if neg then - digits_val ds else digits_val ds), drop_while isdigit b')
  end.

(** The conversion of a [long] to a 32 bit [int] (settings.c:661, gcc: modulo 2^32). *)
Definition to_int (z : Z) : Z := (z + 2 ^ 31) mod 2 ^ 32 - 2 ^ 31.

(** strtod: the value and the unread rest; a parameter of the model *)
Variable strtod : list ascii -> A * list ascii.

(** The index loops of settings_set_key_value: first option with the given name. *)
Fixpoint find_name (names : list string) (i : Z) (key : string) : option Z :=
  match names with
  | [] => None
  | n :: names' => if String.eqb key n then Some i else find_name names' (i + 1) key
  end.

(** [set; return SLEQP_OKAY] with *error == false *)
Definition ok_unless (r : out) : settings * res bool :=
  match r with (s, Ok _) => (s, Ok false) | (s, Err c) => (s, Err c) | (s, Trap) => (s, Trap) end.

(** settings_set_key_value, settings.c:646-740; the boolean is *error *)
Definition set_key_value_enum (s : settings) (key value : string) : settings * res bool :=
  match find_name enum_names 0 key with
  | None => (s, Ok false)
  | Some i =>
    match get_enum i with
    | Ok None => (s, Ok true)
    | Ok (Some e) =>
      match find_entry (en_entries e) value with
      | Some v => ok_unless (set_enum_value s i v)
      | None => (s, Ok true)
      end
    | Err c => (s, Err c)
    | Trap => (s, Trap)
    end
  end.
Definition set_key_value_bool (s : settings) (key value : string) : settings * res bool :=
  match find_name bool_names 0 key with
  | None => set_key_value_enum s key value
  | Some i =>
    if String.eqb value "1" || String.eqb value "true" then ok_unless (set_bool_value s i true)
    else if String.eqb value "0" || String.eqb value "false" then ok_unless (set_bool_value s i false)
    else set_key_value_enum s key value
  end.
Definition set_key_value_real (s : settings) (key : string) (value : list ascii) : settings * res bool :=
  match find_name real_names 0 key with
  | None => set_key_value_bool s key (string_of_list_ascii value)
  | Some i => let '(v, rest) := strtod value in
              match rest with [] => ok_unless (set_real_value s i v) | _ => (s, Ok true) end
  end.
Definition set_key_value (s : settings) (key value : list ascii) : settings * res bool :=
  match find_name int_names 0 (string_of_list_ascii key) with
  | None => set_key_value_real s (string_of_list_ascii key) value
  | Some i => let '(v, rest) := strtol value in
              match rest with [] => ok_unless (set_int_value s i (to_int v)) | _ => (s, Ok true) end
  end.

(** fgets with a buffer of BUF_LEN = 1024 characters (settings.c:557, 755): the
    successive buffers read from a file, each ending with a newline or after 1023
    characters.  [acc] is the current buffer in reverse, [n] its free space. *)
Definition buf_len : nat := 1024.
Fixpoint fgets_all (acc : list ascii) (n : nat) (file : list ascii) : list (list ascii) :=
  match file with
  | [] => match acc with [] => [] | _ => [rev acc] end
  | c :: file' =>
    if Ascii.eqb c newline then rev (c :: acc) :: fgets_all [] (buf_len - 1) file'
    else match n with
         | S (S n') => fgets_all (c :: acc) (S n') file'
         | _ => rev (c :: acc) :: fgets_all [] (buf_len - 1) file'
         end
  end.
(** The C string in a buffer ends at the first NUL. *)
Definition cstr (b : list ascii) : list ascii := take_while (fun c => negb (Ascii.eqb c nul)) b.

(** sleqp_settings_read_file, settings.c:742-803; [None]: the file cannot be opened *)
Fixpoint read_lines (s : settings) (ls : list (list ascii)) : out :=
  match ls with
  | [] => (s, Ok tt)
  | l :: ls' =>
    match extract_key_value (cstr l) with
    | Ok None => read_lines s ls'
    | Ok (Some (key, value)) =>
      match set_key_value s key value with
      | (s', Ok false) => read_lines s' ls'
      | (s', Ok true) => (s', Err EIllegalArg)
      | (s', Err c) => (s', Err c)
      | (s', Trap) => (s', Trap)
      end
    | Err c => (s, Err c)
    | Trap => (s, Trap)
    end
  end.
Definition read_file (s : settings) (file : option (list ascii)) : out :=
  match file with
  | None => (s, Err EIllegalArg)
  | Some f => read_lines s (fgets_all [] (buf_len - 1) f)
  end.
End Settings.
Arguments settings A : clear implicits.
Arguments out A : clear implicits.
