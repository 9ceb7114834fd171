(** The keyword arguments and the attributes of an environment (photontorch/environment/environment.py):
    old argument names, extra arguments, and copying by dictionary.  EnvModel.v has what the constructor
    computes from the arguments.
    Simplifications: positional arguments of the constructor are left out; a value of a wrong type is
    TypeError before anything else (in the code an operation that uses it fails); None is only accepted
    for bitrate and bitlength; num_t, num_wl and num_f have to be integers. *)
From Coq Require Import QArith.
From Verif Require Import Base EnvModel.
Set Implicit Arguments.
Unset Strict Implicit.
Local Open Scope string_scope.
Local Open Scope list_scope.
Local Open Scope nat_scope.

(** Python values; [VObj] stands for all other objects. *)
Inductive val := VNone | VBool (b : bool) | VInt (z : Z) | VNum (q : Q) | VStr (s : string) | VArr (a : arr) | VObj (n : nat).

(** A value together with its class being one of the subclasses of [_DefaultArgument] (lines 38-107). *)
Record pv := { v_val : val; v_mark : bool }.
Definition plain (v : val) : pv := {| v_val := v; v_mark := false |}.
Definition marked (v : val) : pv := {| v_val := v; v_mark := true |}.

(** environment.py:130-143 [_convert_default]; [_bool] is a subclass of int. *)
Definition convert (x : pv) : pv :=
  match v_val x with
  | VNone | VObj _ => x
  | VBool b => marked (VInt (if b then 1 else 0))
  | v => marked v
  end.

(** The names in the signature (lines 169-190), and the old names with the ones they stand for
    (lines 222-234). *)
Definition params : list string :=
  ["dt"; "samplerate"; "num_t"; "t0"; "t1"; "t"; "bitrate"; "bitlength"; "wl"; "f"; "dwl"; "df"; "num_wl"; "num_f";
   "wl0"; "f0"; "wl1"; "f1"; "c"; "freqdomain"; "grad"; "name"].
Definition olds : list (string * string) :=
  [("wavelength", "wl"); ("t_start", "t0"); ("t_end", "t1"); ("num_timesteps", "num_t"); ("time", "t"); ("timestep", "dt");
   ("num_wavelengths", "num_wl"); ("wavelength_step", "dwl"); ("wavelength_start", "wl0"); ("wavelength_end", "wl1");
   ("frequency_domain", "freqdomain"); ("enable_grad", "grad")].

Definition mem (s : string) (l : list string) : bool := existsb (String.eqb s) l.
Notation dict := (list (string * pv)).
Definition look (n : string) (d : dict) : option pv := assoc String.eqb n d.

(** Lines 222-234: [p = kwargs.pop(old, p)] for all old names. *)
Definition old_of (p : string) : option string :=
  match find (fun o => String.eqb (snd o) p) olds with Some o => Some (fst o) | None => None end.
Definition argument (kw : dict) (p : string) : option pv :=
  match old_of p with
  | Some o => match look o kw with Some v => Some v | None => look p kw end
  | None => look p kw
  end.
(** What is left in [kwargs]. *)
Definition is_extra (n : string) : bool := negb (mem n params) && negb (mem n (map fst olds)).
Definition extras (kw : dict) : dict := filter (fun e => is_extra (fst e)) kw.

(** *** Values of the right type *)
Definition as_num (v : val) : res Q :=
  match v with VNum q => Ok q | VInt z => Ok (inject_Z z) | VBool b => Ok (if b then 1 else 0)%Q | _ => Err TypeError end.
Definition as_int (v : val) : res Z :=
  match v with VInt z => Ok z | VBool b => Ok (if b then 1 else 0)%Z | _ => Err TypeError end.
Definition as_arr (v : val) : res arr :=
  match v with VArr a => Ok a | VNum q => Ok (Scalar q) | VInt z => Ok (Scalar (inject_Z z)) | _ => Err TypeError end.
Definition as_bool (v : val) : res bool :=
  match v with
  | VNone => Ok false | VBool b => Ok b | VInt z => Ok (negb (Z.eqb z 0)) | VNum q => Ok (negb (Qeq_bool q 0))
  | VStr s => Ok (negb (String.eqb s "")) | VArr _ => Err ValueError | VObj _ => Ok true
  end.

(** An argument: what is given, and what is used as default in place of the signature's. *)
Definition slot {A} (conv : val -> res A) (o : option pv) : res (option A * option A) :=
  match o with
  | None => Ok (None, None)
  | Some v => do a <- conv (v_val v); Ok (if v_mark v then (None, Some a) else (Some a, None))
  end.
Definition slot_none {A} (conv : val -> res A) (o : option pv) : res (option A * option A) :=
  match o with
  | Some {| v_val := VNone; v_mark := _ |} => Ok (None, None)
  | _ => slot conv o
  end.

Section Str.
Variable py_str : val -> string. (* [str(v)] for values that are no strings *)
Definition as_str (v : val) : res string := match v with VStr s => Ok s | _ => Ok (py_str v) end.

(** All arguments. *)
Definition sort_args (a : string -> option pv) : res (dflt * kw) :=
  do dt <- slot as_num (a "dt"); do samplerate <- slot as_num (a "samplerate"); do num_t <- slot as_int (a "num_t");
  do t0 <- slot as_num (a "t0"); do t1 <- slot as_num (a "t1"); do t <- slot as_arr (a "t");
  do bitrate <- slot_none as_num (a "bitrate"); do bitlength <- slot_none as_num (a "bitlength");
  do wl <- slot as_arr (a "wl"); do f <- slot as_arr (a "f"); do dwl <- slot as_num (a "dwl"); do df <- slot as_num (a "df");
  do num_wl <- slot as_int (a "num_wl"); do num_f <- slot as_int (a "num_f");
  do wl0 <- slot as_num (a "wl0"); do f0 <- slot as_num (a "f0"); do wl1 <- slot as_num (a "wl1"); do f1 <- slot as_num (a "f1");
  do c <- slot as_num (a "c"); do freqdomain <- slot as_bool (a "freqdomain"); do grad <- slot as_bool (a "grad");
  do name <- slot as_str (a "name");
  let s := class_defaults in
  Ok ({| d_dt := get (snd dt) (d_dt s); d_t0 := get (snd t0) (d_t0 s); d_t1 := get (snd t1) (d_t1 s); d_t := get (snd t) (d_t s);
         d_bitrate := snd bitrate; d_wl := get (snd wl) (d_wl s); d_dwl := get (snd dwl) (d_dwl s);
         d_wl0 := get (snd wl0) (d_wl0 s); d_f0 := get (snd f0) (d_f0 s); d_wl1 := get (snd wl1) (d_wl1 s); d_f1 := get (snd f1) (d_f1 s);
         d_c := get (snd c) (d_c s); d_freqdomain := get (snd freqdomain) (d_freqdomain s); d_grad := get (snd grad) (d_grad s);
         d_name := get (snd name) (d_name s) |},
      {| k_dt := fst dt; k_samplerate := fst samplerate; k_num_t := fst num_t; k_t0 := fst t0; k_t1 := fst t1; k_t := fst t;
         k_bitrate := fst bitrate; k_bitlength := fst bitlength; k_wl := fst wl; k_f := fst f; k_dwl := fst dwl; k_df := fst df;
         k_num_wl := fst num_wl; k_num_f := fst num_f; k_wl0 := fst wl0; k_f0 := fst f0; k_wl1 := fst wl1; k_f1 := fst f1; k_c := fst c;
         k_freqdomain := fst freqdomain; k_grad := fst grad; k_name := fst name |}).

(** *** The attributes *)
Definition opt_num (o : option Q) : val := match o with Some q => VNum q | None => VNone end.
Definition nat_val (n : nat) : val := VInt (Z.of_nat n).
(** Lines 368-400. *)
Definition attributes (e : environment) : dict := map (fun a => (fst a, plain (snd a)))
  [("name", VStr (n_name e)); ("t", VArr (Vec (n_t e))); ("time", VArr (Vec (n_t e))); ("t0", VNum (n_t0 e)); ("t_start", VNum (n_t0 e));
   ("t1", opt_num (n_t1 e)); ("t_end", opt_num (n_t1 e)); ("num_t", nat_val (n_num_t e)); ("num_timesteps", nat_val (n_num_t e));
   ("dt", opt_num (n_dt e)); ("timestep", opt_num (n_dt e)); ("samplerate", opt_num (n_samplerate e)); ("bitrate", opt_num (n_bitrate e));
   ("bitlength", opt_num (n_bitlength e)); ("wl", VArr (Vec (n_wl e))); ("wavelength", VArr (Vec (n_wl e))); ("wl0", VNum (n_wl0 e));
   ("wavelength_start", VNum (n_wl0 e)); ("wl1", opt_num (n_wl1 e)); ("wavelength_end", opt_num (n_wl1 e)); ("num_wl", nat_val (n_num_wl e));
   ("num_wavelengths", nat_val (n_num_wl e)); ("dwl", opt_num (n_dwl e)); ("wavelength_step", opt_num (n_dwl e)); ("f", VArr (Vec (n_f e)));
   ("f0", VNum (n_f0 e)); ("f1", opt_num (n_f1 e)); ("num_f", nat_val (n_num_f e)); ("df", opt_num (n_df e)); ("c", VNum (n_c e));
   ("freqdomain", VBool (n_freqdomain e)); ("frequency_domain", VBool (n_freqdomain e)); ("grad", VBool (n_grad e)); ("enable_grad", VBool (n_grad e))].

(** [d.update(x)]. *)
Definition update (d x : dict) : dict := fold_left (fun d e => dict_set String.eqb (fst e) (snd e) d) x d.

(** Lines 401-419: the extra arguments and the private attributes.  Line 402 assigns an attribute, which is
    refused once [_initialized] is there (lines 553-561). *)
Definition finish (e : environment) (x : dict) : res dict :=
  let d := update (attributes e) x in
  match look "_initialized" d with
  | Some v => do b <- as_bool (v_val v);
              if b then Err AttributeError
              else Ok (update d [("_grad_manager", plain (VObj 0)); ("_synonyms", plain (VObj 1)); ("_initialized", plain (VBool true))])
  | None => Ok (update d [("_grad_manager", plain (VObj 0)); ("_synonyms", plain (VObj 1)); ("_initialized", plain (VBool true))])
  end.

(** [Environment( **kw)]: the attributes of the new object.  "self" is taken already. *)
Definition new_env (kw : dict) : res dict :=
  if mem "self" (map fst kw) then Err TypeError
  else do dk <- sort_args (argument kw); do e <- construct (fst dk) (snd dk); finish e (extras kw).

(** The defaults in the signature (lines 169-190) as values; those never read are written [VInt 0]. *)
Definition signature (n : string) : option pv :=
  let s := class_defaults in
  assoc String.eqb n
  [("dt", marked (VNum (d_dt s))); ("samplerate", marked (VInt 0)); ("num_t", marked (VInt 100)); ("t0", marked (VNum (d_t0 s)));
   ("t1", marked (VNum (d_t1 s))); ("t", marked (VArr (d_t s))); ("bitrate", plain VNone); ("bitlength", plain VNone);
   ("wl", marked (VArr (d_wl s))); ("f", marked (VInt 0)); ("dwl", marked (VNum (d_dwl s))); ("df", marked (VInt 0));
   ("num_wl", marked (VInt 1)); ("num_f", marked (VInt 1)); ("wl0", marked (VNum (d_wl0 s))); ("f0", marked (VNum (d_f0 s)));
   ("wl1", marked (VNum (d_wl1 s))); ("f1", marked (VNum (d_f1 s))); ("c", marked (VNum (d_c s)));
   ("freqdomain", marked (VInt 0)); ("grad", marked (VInt 0)); ("name", marked (VStr (d_name s)))].

(** Lines 453-466 [copy]. *)
Definition private (n : string) : bool := match n with String a _ => Ascii.eqb a "_" | EmptyString => false end.
Definition copied (n : string) : bool := negb (private n) && negb (mem n (map fst olds)).
Definition recast (e : string * pv) : string * pv :=
  (fst e, match v_val (snd e) with
          | VNone => match signature (fst e) with Some v => v | None => plain VNone end
          | _ => convert (snd e)
          end).
Definition copy_env (d kw : dict) : res dict :=
  if mem "self" (map fst kw) then Err TypeError
  else new_env (update (map recast (filter (fun e => copied (fst e)) d)) kw).

(** Lines 596-611 [set_environment]: the environment that is made the current one. *)
Definition set_env (args : list dict) (env : option dict) (kw : dict) : res dict :=
  if 2 <? length args then Err ValueError
  else match args, env with
       | [a], Some e => copy_env a (kw ++ [("env", plain (VObj 2))]) (* "env" is an extra argument *)
       | [a], None => copy_env a kw
       | _, Some e => copy_env e kw
       | _, None => new_env kw
       end.
End Str.
