(** * Model of resolver.go: running the bytecode of a query against a schema.

    The bytecode, the fragment locations and the raw JSON variables are fixed while a query runs;
    everything that changes is in [rst].  Go panics and running out of fuel are results of
    their own.  Tracing (startTrace, finishTrace) does not change what is modelled here and is left out. *)
From Coq Require Import String NArith ZArith Bool List.
From Verif Require Import Base JsonModel ReqModel Schema.
Import ListNotations.
Open Scope N_scope.

(** resolver.go 319-323 ErrorWPath: message and path (without path if there is none) *)
Record rerr := RErr { re_msg : bytes; re_path : option bytes }.

(** what resolver.go uses of other code: [W] is the world of the user functions *)
Record externals (W : Type) := Ext {
  x_call : W -> gval -> list gval -> bytes -> option (W * list gval);
      (* reflect Value.Call of a resolver with its arguments; it can see the path of its field
         (Ctx.GetPath); None: it panics *)
  x_dir : W -> N -> list gval -> bytes -> option (W * bool);
      (* call of a user defined directive: DirectiveModifier.Skip *)
  x_ctxerr : W -> option bytes;
      (* error of the request's context, if there is a context and it has ended *)
  x_formfile : option (W -> bytes -> W * (N + bytes));  (* opts.GetFormFile, may be nil *)
  x_parse : bytes -> fj + bytes;        (* fastjson Parser.Parse *)
  x_parse_float : bytes -> N + bytes;   (* strconv.ParseFloat(s, 64) *)
  x_json_float : bytes -> N;            (* fastjson Value.GetFloat64 *)
  x_json_int_err : bytes -> bytes;      (* message of fastjson Value.Int64 for a text that is no int64 *)
  x_of_int : Z -> N;                    (* conversion int64 -> float64 *)
  x_to32 : N -> N;                      (* conversion float64 -> float32 -> float64 *)
  x_float_json : bool -> N -> bytes;    (* helpers/encodeFloat.go FloatToJSON *)
  x_gostring : gval -> bytes            (* reflect Value.String, only used in messages *)
}.
Arguments x_call {W}. Arguments x_dir {W}. Arguments x_ctxerr {W}. Arguments x_formfile {W}. Arguments x_parse {W}.
Arguments x_parse_float {W}. Arguments x_json_float {W}. Arguments x_json_int_err {W}. Arguments x_of_int {W}.
Arguments x_to32 {W}. Arguments x_float_json {W}. Arguments x_gostring {W}.

(** a reflect.Value: read only (obtained through an unexported field) and the value *)
Definition rv : Type := bool * gval.

(** resolver.go 21-48 Ctx (and Schema.Result): the fields that change during a request *)
Record rst (W : Type) := RS {
  r_pos : nat;                    (* charNr *)
  r_out : bytes;                  (* schema.Result *)
  r_errs : list rerr;             (* query.Errors *)
  r_path : bytes;                 (* path *)
  r_vals : N -> rv;               (* reflectValues *)
  r_idx : N;                      (* currentReflectValueIdx *)
  r_vars : option (option fj);    (* None: not parsed; Some v: variables, None for nil *)
  r_world : W
}.
Arguments RS {W}. Arguments r_pos {W}. Arguments r_out {W}. Arguments r_errs {W}. Arguments r_path {W}. Arguments r_vals {W}.
Arguments r_idx {W}. Arguments r_vars {W}. Arguments r_world {W}.

Section Run.
Context {W : Type}.
Variable X : externals W.
Variable S : schema.
Variable res : bytes.          (* ctx.query.Res *)
Variable frags : list nat.     (* ctx.query.FragmentLocations *)
Variable rawvars : bytes.      (* ctx.rawVariables *)
(* ctx.operatorHasArguments and ctx.operatorArgumentsStartAt: resolveOperation sets them before
   anything reads them and nothing else writes them *)
Variable hasargs : bool.
Variable argsat : nat.
Notation st := (rst W).

(** results of a step: a value and the new state, a Go panic, or no fuel left (model only) *)
(* model only, no code: the result of a step *)
Inductive rout (A : Type) := ROk (a : A) (s : st) | RPanic | RNoFuel.
Arguments ROk {A}. Arguments RPanic {A}. Arguments RNoFuel {A}.
(* model only, no code: a step *)
Definition rm (A : Type) := st -> rout A.
(* model only, no code: a result *)
Definition ret {A} (a : A) : rm A := fun s => ROk a s.
(* model only, no code: a Go panic *)
Definition panic {A} : rm A := fun _ => RPanic.
(* model only, no code: the fuel is used up *)
Definition nofuel {A} : rm A := fun _ => RNoFuel.
(* model only, no code: one step after the other *)
Definition bind {A B} (m : rm A) (f : A -> rm B) : rm B :=
  fun s => match m s with ROk a s' => f a s' | RPanic => RPanic | RNoFuel => RNoFuel end.
Notation "x <- m ;; k" := (bind m (fun x => k)) (at level 61, m at next level, right associativity).
Notation "' p <- m ;; k" := (bind m (fun p => k)) (at level 61, p pattern, m at next level, right associativity).
Notation "m ;;; k" := (bind m (fun _ => k)) (at level 61, right associativity).
(* model only, no code: [None] is a panic *)
Definition of_opt {A} (o : option A) : rm A := match o with Some a => ret a | None => panic end.

(* model only, no code: a field of the state *)
Definition set_pos (n : nat) (s : st) : st := RS n (r_out s) (r_errs s) (r_path s) (r_vals s) (r_idx s) (r_vars s) (r_world s).
(* model only, no code: a field of the state *)
Definition set_out (o : bytes) (s : st) : st := RS (r_pos s) o (r_errs s) (r_path s) (r_vals s) (r_idx s) (r_vars s) (r_world s).
(* model only, no code: a field of the state *)
Definition set_errs (e : list rerr) (s : st) : st := RS (r_pos s) (r_out s) e (r_path s) (r_vals s) (r_idx s) (r_vars s) (r_world s).
(* model only, no code: a field of the state *)
Definition set_path (p : bytes) (s : st) : st := RS (r_pos s) (r_out s) (r_errs s) p (r_vals s) (r_idx s) (r_vars s) (r_world s).
(* model only, no code: a field of the state *)
Definition set_vals (v : N -> rv) (i : N) (s : st) : st := RS (r_pos s) (r_out s) (r_errs s) (r_path s) v i (r_vars s) (r_world s).
(* model only, no code: a field of the state *)
Definition set_vars (v : option (option fj)) (s : st) : st := RS (r_pos s) (r_out s) (r_errs s) (r_path s) (r_vals s) (r_idx s) v (r_world s).
(* model only, no code: a field of the state *)
Definition set_world (w : W) (s : st) : st := RS (r_pos s) (r_out s) (r_errs s) (r_path s) (r_vals s) (r_idx s) (r_vars s) w.

(** resolver.go 64-66 getGoValue, 68-71 setNextGoValue, 73-75 setGoValue; the index is a uint8 *)
Definition get_val : rm rv := fun s => ROk (r_vals s (r_idx s)) s.
Definition upd (f : N -> rv) (i : N) (v : rv) : N -> rv := fun j => if j =? i then v else f j.
Definition set_val (v : rv) : rm unit := fun s => ROk tt (set_vals (upd (r_vals s) (r_idx s) v) (r_idx s) s).
Definition idx_inc : rm unit := fun s => ROk tt (set_vals (r_vals s) ((r_idx s + 1) mod 256) s).
Definition idx_dec : rm unit := fun s => ROk tt (set_vals (r_vals s) ((r_idx s + 255) mod 256) s).
Definition set_next_val (v : rv) : rm unit := idx_inc ;;; set_val v.
(** resolver.go 132-150 write, writeByte, writeQuoted, writeNull *)
Definition write (b : bytes) : rm unit := fun s => ROk tt (set_out (r_out s ++ b) s).
Definition write_quoted (b : bytes) : rm unit := write ([34] ++ b ++ [34]).
Definition write_null : rm unit := write (bs "null").
(** resolver.go 301-317 readInst, seekInst, skipInst; reading behind the end panics *)
Definition get_pos : rm nat := fun s => ROk (r_pos s) s.
Definition seek_to (n : nat) : rm unit := fun s => ROk tt (set_pos n s).
Definition skip (n : nat) : rm unit := fun s => ROk tt (set_pos (r_pos s + n) s).
Definition seek : rm N := fun s => match nth_error res (r_pos s) with Some c => ROk c s | None => RPanic end.
Definition read : rm N := fun s => match nth_error res (r_pos s) with Some c => ROk c (set_pos (r_pos s + 1) s) | None => RPanic end.
(** resolver.go 349-355 readUint32 *)
Definition u32 (at_ : nat) : rm N := fun s =>
  match skipn at_ res with
  | a :: b :: c :: d :: _ => ROk (a + 256 * b + 65536 * c + 16777216 * d) s
  | _ => RPanic
  end.
(** query.Res[a:b] *)
Definition slice (a b : nat) : rm bytes :=
  if (b <=? length res)%nat && (a <=? b)%nat then ret (firstn (b - a) (skipn a res)) else panic.
(** the loops that read up to the next zero byte: resolver.go 377-382, 435-440, 485-490, 662-667, 934-939,
    974-979, 1415-1422, 1643-1649; they give the bytes before the zero *)
Fixpoint until0 (l : bytes) : option bytes :=
  match l with
  | [] => None
  | c :: r => if c =? 0 then Some [] else match until0 r with Some n => Some (c :: n) | None => None end
  end.
Definition read_name : rm bytes := fun s =>
  match until0 (skipn (r_pos s) res) with
  | Some n => ROk n (set_pos (r_pos s + length n + 1) s)
  | None => RPanic
  end.
(** resolver.go 329-343 err: always gives true *)
Definition err (msg : bytes) : rm bool := fun s =>
  ROk true (set_errs (r_errs s ++ [RErr msg (match r_path s with [] => None | _ :: p => Some p end)]) s).
Definition get_path : rm bytes := fun s => ROk (r_path s) s.
Definition put_path (p : bytes) : rm unit := fun s => ROk tt (set_path p s).

(** ** package reflect *)
(** Value.SetInt and SetUint keep the low bits; SetFloat converts to the width of the field;
    the Set functions panic on a read only value or a value of another kind *)
Definition wrap_int (w : width) (z : Z) : Z :=
  let m := (2 ^ Z.of_N (bits w))%Z in
  let r := (z mod m)%Z in
  if (r <? m / 2)%Z then r else (r - m)%Z.
Definition wrap_uint (w : width) (n : N) : N := n mod 2 ^ bits w.
Definition set_int (g : rv) (z : Z) : rm gval :=
  match g with (false, GInt w _) => ret (GInt w (wrap_int w z)) | _ => panic end.
Definition set_uint (g : rv) (n : N) : rm gval :=
  match g with (false, GUint w _) => ret (GUint w (wrap_uint w n)) | _ => panic end.
Definition set_float (g : rv) (b : N) : rm gval :=
  match g with (false, GFloat is64 _) => ret (GFloat is64 (if is64 : bool then b else x_to32 X b)) | _ => panic end.
Definition set_bool (g : rv) (b : bool) : rm gval :=
  match g with (false, GBool _) => ret (GBool b) | _ => panic end.
Definition set_string (g : rv) (b : bytes) : rm gval :=
  match g with (false, GString _) => ret (GString b) | _ => panic end.
(** Value.Set with a value of the right type *)
Definition set_any (g : rv) (v : gval) : rm gval := if fst g then panic else ret v.
(** Value.Field: read only if the struct is or the field is not exported *)
Definition field_of (g : rv) (i : nat) : rm rv :=
  match snd g with
  | GStruct fs => match nth_error fs i with Some (e, v) => ret (fst g || negb e, v) | None => panic end
  | _ => panic
  end.
(** replacing the i-th field after it has been set in place *)
Fixpoint upd_nth {A} (l : list A) (i : nat) (v : A) : list A :=
  match l, i with
  | [], _ => []
  | _ :: r, O => v :: r
  | x :: r, Datatypes.S j => x :: upd_nth r j v
  end.
Definition put_field (g : gval) (i : nat) (v : gval) : gval :=
  match g with
  | GStruct fs => match nth_error fs i with Some (e, _) => GStruct (upd_nth fs i (e, v)) | None => g end
  | _ => g
  end.

(** ** package strconv *)
(** Atoi and ParseInt(s, 10, 64): an optional sign and digits; the error is "invalid syntax" or "value out of range" *)
Inductive num (A : Type) := NumOk (a : A) | NumSyntax | NumRange.
Arguments NumOk {A}. Arguments NumSyntax {A}. Arguments NumRange {A}.
Definition all_digits (s : bytes) : bool := negb (match s with [] => true | _ => false end) && forallb (fun c => (48 <=? c) && (c <=? 57)) s.
Definition dec_of (s : bytes) : N := fold_left (fun a c => a * 10 + (c - 48)) s 0.
Definition parse_uint (s : bytes) : num N :=
  if all_digits s then (if dec_of s <? 2 ^ 64 then NumOk (dec_of s) else NumRange) else NumSyntax.
Definition parse_int (s : bytes) : num Z :=
  let '(neg, d) := match s with 45 :: r => (true, r) | 43 :: r => (false, r) | _ => (false, s) end in
  if all_digits d then
    let z := if neg : bool then (- Z.of_N (dec_of d))%Z else Z.of_N (dec_of d) in
    if ((- 2 ^ 63 <=? z) && (z <? 2 ^ 63))%Z then NumOk z else NumRange
  else NumSyntax.
(** message of a strconv.NumError; Quote of the texts that occur here adds quotes only *)
Definition num_error (fn s : bytes) (range : bool) : bytes :=
  bs "strconv." ++ fn ++ bs ": parsing " ++ [34] ++ s ++ [34] ++ bs ": " ++
  (if range then bs "value out of range" else bs "invalid syntax").
(** fastjson Value.Int64 of a number text: an optional minus and digits, in the range of int64 *)
Definition json_int (raw : bytes) : option Z :=
  let '(neg, d) := match raw with 45 :: r => (true, r) | _ => (false, raw) end in
  if all_digits d then
    let z := if neg : bool then (- Z.of_N (dec_of d))%Z else Z.of_N (dec_of d) in
    if ((- 2 ^ 63 <=? z) && (z <? 2 ^ 63))%Z then Some z else None
  else None.
(** int64(int8(v)) == v and the like; WInt and W64 have no check *)
Definition fits_int (w : width) (z : Z) : bool :=
  match w with W64 | WInt => true | _ => (wrap_int w z =? z)%Z end.
Definition fits_uint (w : width) (n : N) : bool :=
  match w with W64 | WInt => true | _ => wrap_uint w n =? n end.
Definition width_name (w : width) : bytes := match w with W8 => bs "8bit" | W16 => bs "16bit" | W32 => bs "32bit" | _ => [] end.

(** ** Binding of arguments.  Instead of setting a Go value in place the functions give the new value,
    together with valueSet and criticalErr. *)
(* the results of resolver.go 1072, 1399: the value, valueSet, criticalErr *)
Definition bres : Type := gval * bool * bool.
(** return false, ctx.err(msg) *)
(* resolver.go 1072-1312, 1399-1625 *)
Definition fail (g : rv) (msg : bytes) : rm bres := err msg ;;; ret (snd g, false, true).
(* return true, false in resolver.go 1072-1312, 1399-1625 *)
Definition okay (v : gval) : rm bres := ret (v, true, false).

(** the switch on enum.contentKind in resolver.go 1106-1116, 1319-1329, 1559-1569 *)
Definition assign_enum (g : rv) (e : enum) (name : bytes) : rm bres :=
  match slookup (en_entries e) name with
  | Some v =>
      match en_kind e, v with
      | KString, GString s => v' <- set_string g s ;; okay v'
      | KInt _, GInt _ z => v' <- set_int g z ;; okay v'
      | KUint _, GUint _ n => v' <- set_uint g n ;; okay v'
      | KString, _ | KInt _, _ | KUint _, _ => panic
      | _, _ => fail g (bs "internal error, type missmatch on enum")
      end
  | None => fail g (bs "unknown enum value " ++ name ++ bs " for enum " ++ en_name e)
  end.
(** resolver.go 1126-1151 and 1335-1357: an ID from a string *)
Definition assign_id (g : rv) (s : bytes) : rm bres :=
  match kind_of (snd g) with
  | KString => v <- set_string g s ;; okay v
  | KInt _ =>
      match parse_int s with
      | NumOk z => v <- set_int g z ;; okay v
      | _ => fail g (bs "id argument must match a number type")
      end
  | KUint _ =>
      match parse_int s with
      | NumOk z => if (z <? 0)%Z then fail g (bs "id argument must match a number above 0")
                   else v <- set_uint g (Z.to_N z) ;; okay v
      | _ => fail g (bs "id argument must match a number type")
      end
  | _ => fail g (bs "internal error: cannot assign to this ID field")
  end.
(** resolver.go 1168-1173 and 1368-1372 *)
Definition assign_time (g : rv) (s : bytes) : rm bres :=
  match parse_iso s with
  | Some t => v <- set_any g (GTm t) ;; okay v
  | None => fail g (bs "time value doesn't match the ISO 8601 layout")
  end.
(** resolver.go 1157-1162 and 1362-1366; a call of a nil function panics *)
Definition assign_file (g : rv) (s : bytes) : rm bres :=
  match x_formfile X with
  | None => panic
  | Some get => fun st =>
      let '(w, r) := get (r_world st) s in
      (match r with
       | inr e => fail g e
       | inl f => v <- set_any g (GFile (Some f)) ;; okay v
       end) (set_world w st)
  end.
(** resolver.go 1314-1379 assignStringToValue (on success the value is set) *)
Definition assign_string (g : rv) (i : input) (s : bytes) : rm bres :=
  match i_enum i with
  | Some k => e <- of_opt (nth_error (s_enums S) k) ;; assign_enum g e s
  | None =>
      if i_isid i then assign_id g s
      else if i_isfile i then
        match x_formfile X with None => fail g (bs "form files are not supported") | Some _ => assign_file g s end
      else if i_istime i then assign_time g s
      else match kind_of (snd g) with
           | KString => v <- set_string g s ;; okay v
           | _ => fail g (bs "cannot assign string to " ++ x_gostring X (snd g))
           end
  end.

(** resolver.go 1381-1397 checkInputIsPtr, around the function for the pointed-to value *)
Definition through_ptr (g : rv) (i : input) (whenptr : rv -> input -> rm bres) (otherwise : rm bres) : rm bres :=
  match i_kind i with
  | KPtr =>
      if i_isfile i then otherwise
      else
        e <- of_opt (i_elem i) ;;
        '(v, set_, crit) <- whenptr (false, i_zero e) e ;;
        if crit : bool then ret (snd g, false, true)
        else if set_ : bool then (v' <- set_any g (GPtr (Some v)) ;; ret (v', true, false))
        else ret (snd g, false, false)
  | _ => otherwise
  end.

(** resolver.go 1186-1188 and 1603-1605: the members of an input struct; reading structContent of a
    missing entry is a nil dereference *)
Definition content_of (i : input) : rm (list (bytes * input)) :=
  if i_structptr i then
    match slookup (s_intypes S) (i_structname i) with Some j => ret (i_content j) | None => panic end
  else ret (i_content i).

(** resolver.go 1245-1293: a JSON number bound to something that is no float *)
Definition json_number (g : rv) (raw : bytes) : rm bres :=
  match json_int raw with
  | None => fail g (x_json_int_err X raw)
  | Some z =>
      match kind_of (snd g) with
      | KInt w =>
          if fits_int w z then v <- set_int g z ;; okay v
          else fail g (bs "cannot assign " ++ int_to_json z ++ bs " to a " ++ width_name w ++ bs " integer")
      | KUint w =>
          (* lines 1270-1283 test for reflect.Int8, Int16 and Int32, which an unsigned value never is *)
          if (z <? 0)%Z then fail g (bs "cannot assign " ++ int_to_json z ++ bs " to a unsigned integer")
          else v <- set_uint g (Z.to_N z) ;; okay v
      | KBool => v <- set_bool g (0 <? z)%Z ;; okay v
      | _ => fail g (bs "cannot assign number to " ++ x_gostring X (snd g))
      end
  end.

(** resolver.go 1072-1312 bindJSONToValue *)
Fixpoint bind_json (fuel : nat) (g : rv) (i : input) (j : fj) {struct fuel} : rm bres :=
  match fuel with
  | O => nofuel
  | Datatypes.S fuel =>
  through_ptr g i (fun g i => bind_json fuel g i j)
  (match i_enum i, i_isid i, i_isfile i, i_istime i with
   | None, false, false, false =>
       match j with
       | FNull => ret (snd g, false, false)
       | FObject m =>
           match kind_of (snd g) with
           | KStruct =>
               c <- content_of i ;;
               (fix members (v : gval) (m : list (bytes * fj)) : rm bres :=
                  match m with
                  | [] => okay v
                  | (k, jv) :: r =>
                      match slookup c k with
                      | None => err (bs "undefined property " ++ k) ;;; ret (v, true, true)
                      | Some fi =>
                          f <- field_of (fst g, v) (i_field fi) ;;
                          '(fv, _, crit) <- bind_json fuel f fi jv ;;
                          let v := put_field v (i_field fi) fv in
                          if crit : bool then ret (v, true, true) else members v r
                      end
                  end) (snd g) m
           | _ => fail g (bs "cannot assign object to non object value")
           end
       | FArray l =>
           match kind_of (snd g) with
           | KSlice =>
               (fix elems (l : list fj) (acc : list gval) : rm bres :=
                  match l with
                  | [] => v <- set_any g (GSlice (Some acc)) ;; okay v
                  | jv :: r =>
                      ei <- of_opt (i_elem i) ;;
                      '(ev, _, crit) <- bind_json fuel (false, i_zero ei) ei jv ;;
                      if crit : bool then ret (snd g, false, true) else elems r (acc ++ [ev])
                  end) l []
           | _ => fail g (bs "cannot assign slice to " ++ x_gostring X (snd g))
           end
       | FString s => assign_string g i s
       | FNumber raw =>
           match kind_of (snd g) with
           | KFloat _ => v <- set_float g (x_json_float X raw) ;; okay v
           | _ => json_number g raw
           end
       | FTrue => match kind_of (snd g) with
                  | KBool => v <- set_bool g true ;; okay v
                  | _ => fail g (bs "cannot assign boolean to " ++ x_gostring X (snd g))
                  end
       | FFalse => match kind_of (snd g) with
                   | KBool => v <- set_bool g false ;; okay v
                   | _ => fail g (bs "cannot assign boolean to " ++ x_gostring X (snd g))
                   end
       end
   | en, isid, isfile, istime =>
       match j with
       | FString s =>
           match en with
           | Some k => e <- of_opt (nth_error (s_enums S) k) ;; assign_enum g e s
           | None => if isid then assign_id g s else if isfile then assign_file g s else assign_time g s
           end
       | _ => fail g (bs "cannot assign " ++ fj_type j ++ bs " to " ++
                      (match en with Some _ => bs "Enum" | None => if isid then bs "ID" else if isfile then bs "File" else bs "Time" end) ++ bs " value")
       end
   end)
  end.

(** resolver.go 1046-1070 bindExternalVariableValue: (value, valueSet, found, criticalErr) *)
Definition get_vars : rm (option (option fj)) := fun s => ROk (r_vars s) s.
Definition put_vars (v : option (option fj)) : rm unit := fun s => ROk tt (set_vars v s).
(** fastjson Value.Get with a key that is no number *)
Definition var_get (v : option fj) (k : bytes) : option fj :=
  match v with Some (FObject m) => fj_get m k | _ => None end.
Definition bind_external (fuel : nat) (g : rv) (i : input) (name : bytes) : rm (gval * bool * bool * bool) :=
  vars <- get_vars ;;
  let found (v : option fj) : rm (gval * bool * bool * bool) :=
    match var_get v name with
    | None => ret (snd g, false, false, false)
    | Some j => '(v, set_, crit) <- bind_json fuel g i j ;; ret (v, set_, true, crit)
    end in
  match vars with
  | Some v => found v
  | None =>
      match rawvars with
      | [] => ret (snd g, false, false, false)
      | _ =>
          match x_parse X rawvars with
          | inr e => put_vars (Some None) ;;; err e ;;; ret (snd g, false, false, true)
          | inl v =>
              put_vars (Some (Some v)) ;;;
              match v with
              | FObject _ => found (Some v)
              | _ => err (bs "variables provided must be of type object") ;;; ret (snd g, false, false, true)
              end
          end
      end
  end.

(** resolver.go 917-948 findOperatorArgument; the fuel is the number of arguments looked at *)
Fixpoint find_arg_loop (fuel : nat) (name : bytes) : rm bool :=
  match fuel with
  | O => nofuel
  | Datatypes.S fuel =>
      start <- get_pos ;;
      c <- read ;;
      if c =? 101 then ret false
      else
        p <- get_pos ;;
        len <- u32 p ;;
        skip 4 ;;;
        n <- read_name ;;
        if beqb n name then ret true
        else seek_to (start + N.to_nat len + 1) ;;; find_arg_loop fuel name
  end.
Definition find_arg (fuel : nat) (name : bytes) : rm bool :=
  if hasargs then seek_to argsat ;;; skip 2 ;;; find_arg_loop fuel name else ret false.

(** resolver.go 956-967: the list marks of the declared type *)
Fixpoint list_marks (fuel : nat) (i : input) (c : N) (name : bytes) : rm (option input * N) :=
  if (c =? 76) || (c =? 108) then
    match fuel with
    | O => nofuel
    | Datatypes.S fuel =>
        match i_kind i with
        | KSlice => e <- of_opt (i_elem i) ;; c <- read ;; list_marks fuel e c name
        | k => err (bs "variable $" ++ name ++ bs " cannot be bind to " ++ kind_string k) ;;; ret (None, c)
        end
    end
  else ret (Some i, c).
(** resolver.go 982-1025: the declared type name must match; the error message otherwise *)
Definition type_mismatch (i : input) (tname : bytes) : rm (option bytes) :=
  let expect (ns : list bytes) (what : bytes) : rm (option bytes) :=
    ret (if existsb (beqb tname) ns then None else Some (bs "expected variable type " ++ what ++ bs " but got " ++ tname)) in
  match i_enum i with
  | Some k => e <- of_opt (nth_error (s_enums S) k) ;; expect [en_name e; bs "String"] (en_name e)
  | None =>
      if i_isid i then expect [bs "ID"; bs "String"] (bs "ID")
      else if i_isfile i then expect [bs "File"; bs "String"] (bs "File")
      else if i_istime i then expect [bs "Time"; bs "String"] (bs "Time")
      else match i_kind i with
           | KBool => ret None
           | KInt _ | KUint _ => expect [bs "Int"] (bs "Int")
           | KFloat _ => expect [bs "Float"] (bs "Float")
           | KArray | KSlice => expect [bs "List"] (bs "List")
           | KString => expect [bs "String"] (bs "String")
           | KStruct => expect [i_structname i] (i_structname i)
           | _ => ret (Some (bs "cannot set field using variable"))
           end
  end.

(** resolver.go 1451-1516: an integer literal *)
Definition int_literal (g : rv) (lit : bytes) : rm bres :=
  match kind_of (snd g) with
  | KInt w =>
      match parse_int lit with
      | NumOk z => if fits_int w z then v <- set_int g z ;; okay v
                   else fail g (bs "cannot assign " ++ lit ++ bs " to a " ++ width_name w ++ bs " integer")
      | NumSyntax => fail g (num_error (bs "ParseInt") lit false)
      | NumRange => fail g (num_error (bs "ParseInt") lit true)
      end
  | KUint w =>
      match parse_uint lit with
      | NumOk n => if fits_uint w n then v <- set_uint g n ;; okay v
                   else fail g (bs "cannot assign " ++ lit ++ bs " to a " ++ width_name w ++ bs " unsigned integer")
      | NumSyntax => fail g (num_error (bs "ParseUint") lit false)
      | NumRange => fail g (num_error (bs "ParseUint") lit true)
      end
  | KFloat _ =>
      match parse_int lit with
      | NumOk z => v <- set_float g (x_of_int X z) ;; okay v
      | NumSyntax => fail g (num_error (bs "ParseInt") lit false)
      | NumRange => fail g (num_error (bs "ParseInt") lit true)
      end
  | KBool =>
      match parse_int lit with
      | NumOk z => v <- set_bool g (0 <? z)%Z ;; okay v
      | NumSyntax => fail g (num_error (bs "ParseInt") lit false)
      | NumRange => fail g (num_error (bs "ParseInt") lit true)
      end
  | _ => fail g (bs "cannot assign int to " ++ x_gostring X (snd g))
  end.

(** resolver.go 1399-1625 bindInputToGoValue, 950-1044 bindOperatorArgumentTo and
    1627-1656 walkInputObject (the callback has the state [A]) *)
Fixpoint walk_object {A : Type} (fuel : nat) (onkey : A -> bytes -> rm (A * bool)) (a : A) : rm (A * bool) :=
  match fuel with
  | O => nofuel
  | Datatypes.S fuel =>
      c <- read ;;
      e <- (if c =? 101 then ret true else if c =? 0 then (d <- read ;; ret (d =? 101)) else ret false) ;;
      if e : bool then skip 1 ;;; ret (a, false)
      else
        key <- read_name ;;
        '(a, crit) <- onkey a key ;;
        if crit : bool then ret (a, true) else walk_object fuel onkey a
  end.

(* resolver.go 1399-1625 bindInputToGoValue with 950-1044 bindOperatorArgumentTo *)
Fixpoint bind_input (fuel : nat) (g : rv) (i : input) (vars_ok : bool) {struct fuel} : rm bres :=
  match fuel with
  | O => nofuel
  | Datatypes.S fuel =>
  through_ptr g i
    (fun g i =>
       p <- get_pos ;;
       k <- of_opt (nth_error res (p + 1)) ;;
       if k =? 110 then skip 6 ;;; ret (snd g, false, false)
       else bind_input fuel g i vars_ok)
    (skip 1 ;;;
     k <- read ;;
     skip 4 ;;;
     if k =? 36 then (* ValueVariable *)
       if negb vars_ok then fail g (bs "variables are not allowed here")
       else
         name <- read_name ;;
         back <- get_pos ;;
         found <- find_arg fuel name ;;
         if negb found then seek_to back ;;; fail g (bs "variable " ++ name ++ bs " not defined")
         else
           r <- bind_oparg fuel g i name ;;
           seek_to back ;;; ret r
     else if k =? 105 then (* ValueInt *) lit <- read_name ;; int_literal g lit
     else if k =? 102 then (* ValueFloat *)
       match kind_of (snd g) with
       | KFloat _ =>
           lit <- read_name ;;
           match x_parse_float X lit with
           | inl b => v <- set_float g b ;; okay v
           | inr e => fail g e
           end
       | _ => fail g (bs "cannot assign float to " ++ x_gostring X (snd g))
       end
     else if k =? 115 then (* ValueString *) s <- read_name ;; assign_string g i s
     else if k =? 98 then (* ValueBoolean *)
       match kind_of (snd g) with
       | KBool => c <- read ;; v <- set_bool g (c =? 49) ;; skip 1 ;;; okay v
       | _ => fail g (bs "cannot assign boolean to " ++ x_gostring X (snd g))
       end
     else if k =? 110 then (* ValueNull *) skip 1 ;;; ret (snd g, false, false)
     else if k =? 101 then (* ValueEnum *)
       match i_enum i with
       | None => fail g (bs "cannot assign enum to non enum value")
       | Some n => name <- read_name ;; e <- of_opt (nth_error (s_enums S) n) ;; assign_enum g e name
       end
     else if k =? 108 then (* ValueList *)
       match kind_of (snd g) with
       | KArray => fail g (bs "fixed length arrays not supported")
       | KSlice =>
           skip 1 ;;;
           (fix elems (n : nat) (acc : list gval) : rm bres :=
              c <- seek ;;
              if c =? 101 then v <- set_any g (GSlice (Some acc)) ;; okay v
              else
                match n with
                | O => nofuel
                | Datatypes.S n =>
                    ei <- of_opt (i_elem i) ;;
                    '(v, _, crit) <- bind_input fuel (false, i_zero ei) ei vars_ok ;;
                    if crit : bool then ret (snd g, false, true) else elems n (acc ++ [v])
                end) fuel []
       | _ => fail g (bs "cannot assign list to " ++ x_gostring X (snd g))
       end
     else if k =? 111 then (* ValueObject *)
       match kind_of (snd g) with
       | KStruct =>
           c <- content_of i ;;
           p <- get_pos ;;
           seek_to (p - 6)%nat ;;;
           skip 7 ;;;
           '(v, set_, crit) <-
             (r <- walk_object fuel
               (fun (a : gval * bool) key =>
                  let '(v, set_) := a in
                  match slookup c key with
                  | None => b <- err (bs "undefined property " ++ key) ;; ret ((v, set_), b)
                  | Some fi =>
                      f <- field_of (fst g, v) (i_field fi) ;;
                      '(fv, fset, crit) <- bind_input fuel f fi vars_ok ;;
                      ret ((put_field v (i_field fi) fv, fset), crit)
                  end) (snd g, true) ;;
              ret (fst (fst r), snd (fst r), snd r)) ;;
           ret (v, set_, crit)
       | _ => fail g (bs "cannot assign object to " ++ x_gostring X (snd g))
       end
     else (* any other kind: nothing happens *) okay (snd g))
  end
with bind_oparg (fuel : nat) (g : rv) (i : input) (name : bytes) {struct fuel} : rm bres :=
  match fuel with
  | O => nofuel
  | Datatypes.S fuel =>
      c <- read ;;
      '(ri, c) <- list_marks fuel i c name ;;
      match ri with
      | None => ret (snd g, false, true)
      | Some ri =>
          mis <- (if (c =? 110) || (c =? 78) then tname <- read_name ;; type_mismatch ri tname else ret None) ;;
          match mis with
          | Some m => fail g m
          | None =>
              d <- read ;;
              skip 1 ;;;
              '(v, set_, found, crit) <- bind_external fuel g i name ;;
              if crit : bool then ret (v, set_, true)
              else if found : bool then ret (v, set_, false)
              else if negb (d =? 116) then fail g (bs "variable has no value nor default")
              else bind_input fuel g i false
          end
      end
  end.

(** ** Resolving *)
(** resolver.go 623-653 callQlMethod up to the call: the arguments of the function *)
Definition zero_args (ins : list (option gval)) : list gval := map (fun z => match z with None => GCtx | Some v => v end) ins.
Definition bind_args (fuel : nat) (ins : list (option gval)) (infields : list (bytes * (nat * input))) (parse_args : bool)
  : rm (list gval * bool) :=
  if parse_args then
    skip 7 ;;;
    walk_object fuel
      (fun (fi : list gval) key =>
         match slookup infields key with
         | None => b <- err (bs "undefined input: " ++ key) ;; ret (fi, b)
         | Some (n, i) =>
             a <- of_opt (nth_error fi n) ;;
             f <- field_of (false, a) (i_field i) ;;
             '(v, _, crit) <- bind_input fuel f i true ;;
             ret (upd_nth fi n (put_field a (i_field i) v), crit)
         end) (zero_args ins)
  else ret (zero_args ins, false).

(** resolver.go 655-694 resolveDirective: (Skip, criticalErr) *)
Definition get_world : rm W := fun s => ROk (r_world s) s.
Definition put_world (w : W) : rm unit := fun s => ROk tt (set_world w s).
Definition resolve_directive (fuel : nat) (loc : N) : rm (bool * bool) :=
  skip 1 ;;;
  h <- read ;;
  name <- read_name ;;
  match nlookup (s_dirs S) loc with
  | None => b <- err (bs "unknown directive " ++ name) ;; ret (false, b)
  | Some ds =>
      match find (fun d => beqb (dd_name d) name) ds with
      | None => b <- err (bs "unknown directive " ++ name) ;; ret (false, b)
      | Some d =>
          '(args, crit) <- bind_args fuel (dd_ins d) (dd_infields d) (h =? 116) ;;
          if crit : bool then ret (false, true)
          else
            match dd_fn d, args with
            | DSkip, [GStruct [(_, GBool b)]] => ret (b, false)
            | DInclude, [GStruct [(_, GBool b)]] => ret (negb b, false)
            | DUser f, _ =>
                w <- get_world ;;
                p <- get_path ;;
                '(w, b) <- of_opt (x_dir X w f args p) ;;
                put_world w ;;; ret (b, false)
            | _, _ => panic
            end
      end
  end.
(** the loops over the directives, resolver.go 450-456 and 543-558: (skip, criticalErr) *)
Fixpoint resolve_directives (fuel : nat) (loc : N) (n : nat) : rm (bool * bool) :=
  match n with
  | O => ret (false, false)
  | Datatypes.S n =>
      '(skip_, crit) <- resolve_directive fuel loc ;;
      if crit || skip_ then ret (true, crit) else resolve_directives fuel loc n
  end.

(** resolver.go 1658-1686 valueToJSON; reading a value as another kind panics. A data value is
    never a pointer, so the case reflect.Ptr does not arise here.  (Simplified: Value.String of another kind gives a text
    like <int Value> instead of a panic; C50 shows that values have the kind they are read as.) *)
Definition value_json (v : gval) (k : kind) : rm unit :=
  match k with
  | KString => match v with GString s => write (string_to_json s) | GErr _ | GOther => panic | _ => panic end
  | KBool => match v with GBool b => write (if b then bs "true" else bs "false") | _ => panic end
  | KInt _ => match v with GInt _ z => write (int_to_json z) | _ => panic end
  | KUint _ => match v with GUint _ n => write (uint_to_json n) | _ => panic end
  | KFloat is64 => match v with GFloat _ b => write (x_float_json X is64 b) | _ => panic end
  | _ => write_null
  end.
(** resolver.go 835-862: the name of an enum value; as in valueToJSON another kind panics *)
Definition same_enum_value (k : kind) (v e : gval) : rm bool :=
  match k, v, e with
  | KInt _, GInt _ a, GInt _ b => ret (a =? b)%Z
  | KUint _, GUint _ a, GUint _ b => ret (a =? b)
  | KString, GString a, GString b => ret (beqb a b)
  | KInt _, _, _ | KUint _, _, _ | KString, _, _ => panic
  | _, _, _ => ret false
  end.
Fixpoint write_enum (k : kind) (v : gval) (es : list (bytes * gval)) : rm unit :=
  match es with
  | [] => write_null
  | (n, e) :: r => b <- same_enum_value k v e ;; if b : bool then write_quoted n else write_enum k v r
  end.
(** the loop of resolver.go 701-703: is there a method behind pointers? *)
Fixpoint behind_ptr (o : obj) : obj := match o with OPtr e => behind_ptr e | _ => o end.
Definition is_method (o : obj) : bool := match o with OMethod _ => true | _ => false end.

(** resolver.go 399-423 resolveSelectionSet; [first] is *firstField, which is given back.
    [resolve_sel], [resolve_spread] and [resolve_field], [resolve_value] call each other. *)
Fixpoint resolve_sel (fuel : nat) (o : obj) (dept : N) (first : bool) {struct fuel} : rm (bool * bool) :=
  match fuel with
  | O => nofuel
  | Datatypes.S fuel =>
      c <- read ;;
      if c =? 101 then ret (first, false)
      else if c =? 102 then
        '(skipped, crit) <- resolve_field fuel o dept (negb first) ;;
        if crit : bool then ret (first, true)
        else resolve_sel fuel o dept (if skipped : bool then first else false)
      else if c =? 115 then
        '(first, crit) <- resolve_spread fuel o dept first ;;
        if crit : bool then ret (first, true) else resolve_sel fuel o dept first
      else b <- err (bs "unsupported operation " ++ utf8_encode c) ;; ret (first, b)
  end
(** resolver.go 425-504 resolveSpread *)
with resolve_spread (fuel : nat) (o : obj) (dept : N) (first : bool) {struct fuel} : rm (bool * bool) :=
  match fuel with
  | O => nofuel
  | Datatypes.S fuel =>
      t <- read ;;
      let inline := t =? 116 in
      dirs <- read ;;
      p <- get_pos ;;
      len <- u32 p ;;
      skip 4 ;;;
      start <- get_pos ;;
      name <- read_name ;;
      let next := (start + N.to_nat len + 1)%nat in
      '(skip_, crit) <- resolve_directives fuel (if inline then 2 else 1) (N.to_nat dirs) ;;
      if crit || skip_ then seek_to next ;;; ret (first, crit)
      else if inline then
        if negb (beqb (o_name o) name) then seek_to next ;;; ret (first, false)
        else
          r <- resolve_sel fuel o dept first ;;
          skip 1 ;;; ret r
      else
        (fix fragments (ls : list nat) : rm (bool * bool) :=
           match ls with
           | [] => b <- err (bs "fragment " ++ name ++ bs " not defined") ;; ret (first, b)
           | l :: r =>
               let fstart := (l + 1)%nat in
               let fend := (fstart + length name)%nat in
               if (length res <=? fend)%nat then fragments r
               else
                 n <- slice fstart fend ;;
                 if beqb n name then
                   back <- get_pos ;;
                   seek_to (fend + 1)%nat ;;;
                   tname <- read_name ;;
                   if negb (beqb (o_name o) tname) then seek_to next ;;; ret (first, false)
                   else
                     r <- resolve_sel fuel o dept first ;;
                     seek_to back ;;; ret r
                 else fragments r
           end) frags
  end
(** resolver.go 506-621 resolveField: (skipped, criticalErr) *)
with resolve_field (fuel : nat) (o : obj) (dept : N) (comma : bool) {struct fuel} : rm (bool * bool) :=
  match fuel with
  | O => nofuel
  | Datatypes.S fuel =>
      dirs <- read ;;
      p <- get_pos ;;
      len <- u32 p ;;
      skip 4 ;;;
      p <- get_pos ;;
      key <- u32 p ;;
      skip 4 ;;;
      p <- get_pos ;;
      let end_ := (p + N.to_nat len)%nat in
      alen <- read ;;
      astart <- get_pos ;;
      let aend := (astart + N.to_nat alen)%nat in
      alias <- slice astart aend ;;
      skip (N.to_nat alen) ;;;
      path <- get_path ;;
      put_path (path ++ [44; 34] ++ alias ++ [34]) ;;;
      nlen <- read ;;
      nstart <- get_pos ;;
      let '(nstart, nend) := if nlen =? 0 then (astart, aend) else (nstart, (nstart + N.to_nat nlen)%nat) in
      skip (N.to_nat nlen) ;;;
      skip 1 ;;;
      '(skip_, crit) <- resolve_directives fuel 0 (N.to_nat dirs) ;;
      if crit || skip_ then put_path path ;;; seek_to (end_ + 1)%nat ;;; ret (true, crit)
      else
        (if comma then write [44] else ret tt) ;;;
        write_quoted alias ;;;
        write [58] ;;;
        c <- seek ;;
        let has_sel := negb (c =? 101) in
        crit <-
          match nlookup (o_fields o) key with
          | None =>
              name <- slice nstart nend ;;
              if beqb name (bs "__typename") then
                if has_sel then err (bs "cannot have a selection set on this field")
                else write_quoted (o_name o) ;;; ret false
              else write_null ;;; err (name ++ bs " does not exists on " ++ o_name o)
          | Some (Field fo custom idx _ _) =>
              g <- get_val ;;
              (match custom with
               | Some v => set_next_val (false, v)
               | None =>
                   match fo with
                   | OMethod (Method true _ _ _ _ _) => set_next_val (fst g, GMethod (snd g) idx)
                   | _ => f <- field_of g idx ;; set_next_val f
                   end
               end) ;;;
              crit <- resolve_value fuel fo dept has_sel ;;
              idx_dec ;;; ret crit
          end ;;
        put_path path ;;;
        seek_to (end_ + 1)%nat ;;;
        ret (false, crit)
  end
(** resolver.go 696-915 resolveFieldDataValue: criticalErr *)
with resolve_value (fuel : nat) (o : obj) (dept : N) (has_sel : bool) {struct fuel} : rm bool :=
  match fuel with
  | O => nofuel
  | Datatypes.S fuel =>
      g <- get_val ;;
      c <- seek ;;
      if (c =? 118) && negb (is_method o) && negb (is_method (behind_ptr o)) then
        write_null ;;; err (bs "field arguments not allowed")
      else
        match o with
        | OUndef => write_null ;;; ret false
        | OArray e =>
            match snd g with
            | GSlice None => write_null ;;; ret false
            | GSlice (Some l) | GArray l =>
                write [91] ;;;
                idx_inc ;;;
                start <- get_pos ;;
                (fix elems (n : N) (l : list gval) : rm unit :=
                   match l with
                   | [] => ret tt
                   | v :: r =>
                       seek_to start ;;;
                       path <- get_path ;;
                       put_path (path ++ [44] ++ dec_of_N n) ;;;
                       set_val (fst g, v) ;;;
                       resolve_value fuel e dept has_sel ;;;
                       (match r with [] => ret tt | _ => write [44] end) ;;;
                       put_path path ;;;
                       elems (n + 1) r
                   end) 0 l ;;;
                idx_dec ;;;
                write [93] ;;; ret false
            | _ => panic
            end
        | OObj _ _ | OObjRef _ =>
            if negb has_sel then write_null ;;; err (bs "must have a selection")
            else
              match (match o with OObjRef n => slookup (s_types S) n | _ => Some o end) with
              | None => write_null ;;; ret false
              | Some t =>
                  let dept := (dept + 1) mod 256 in
                  if dept =? s_maxdepth S then write_null ;;; err (bs "reached max dept")
                  else
                    write [123] ;;;
                    '(_, crit) <- resolve_sel fuel t dept true ;;
                    write [125] ;;; ret crit
              end
        | OData isid k =>
            if has_sel then write_null ;;; err (bs "cannot have a selection set on this field")
            else if isid && negb (match k with KString => true | _ => false end) then
              write [34] ;;; value_json (snd g) k ;;; write [34] ;;; ret false
            else value_json (snd g) k ;;; ret false
        | OPtr e =>
            match snd g with
            | GPtr None => write_null ;;; ret false
            | GPtr (Some v) => set_val (fst g, v) ;;; resolve_value fuel e dept has_sel
            | _ => panic
            end
        | OMethod (Method istype ins infields outnr errnr out) =>
            match istype, snd g with
            | false, GFunc None => write_null ;;; ret false
            | false, GFunc (Some _) | true, GMethod _ _ =>
                '(args, crit) <- bind_args fuel ins infields (c =? 118) ;;
                if crit : bool then ret true
                else
                  if fst g then panic
                  else
                    w <- get_world ;;
                    p <- get_path ;;
                    '(w, outs) <- of_opt (x_call X w (snd g) args p) ;;
                    put_world w ;;;
                    c <- seek ;;
                    let has_sel := negb (c =? 101) in
                    (match errnr with
                     | None => ret tt
                     | Some n =>
                         e <- of_opt (nth_error outs n) ;;
                         match e with
                         | GErr None => ret tt
                         | GErr (Some m) => err m ;;; ret tt
                         | _ => panic
                         end
                     end) ;;;
                    match x_ctxerr X w with
                    | Some m => err m ;;; write_null ;;; ret false
                    | None =>
                        v <- of_opt (nth_error outs outnr) ;;
                        set_val (false, v) ;;;
                        resolve_value fuel out dept has_sel
                    end
            | _, _ => panic
            end
        | OEnum i =>
            e <- of_opt (nth_error (s_enums S) i) ;;
            write_enum (en_kind e) (snd g) (en_entries e) ;;; ret false
        | OTime =>
            if fst g then panic
            else
              match snd g with
              | GTm t => write ([34] ++ time_to_iso t ++ [34]) ;;; ret false
              | _ => write_null ;;; ret false
              end
        | OIface _ _ _ | OIfaceRef _ =>
            if negb has_sel then write_null ;;; err (bs "must have a selection")
            else
              match (match o with OIfaceRef n => slookup (s_ifaces S) n | _ => Some o end) with
              | None => write_null ;;; ret false
              | Some t =>
                  match snd g with
                  | GIface None => write_null ;;; ret false
                  | GIface (Some (tn, pkg, v)) =>
                      set_next_val (fst g, v) ;;;
                      match find (fun i => beqb (fst (fst i)) tn && beqb (snd (fst i)) pkg)
                                 (match t with OIface _ _ is => is | _ => [] end) with
                      | Some (_, impl) =>
                          crit <- resolve_value fuel impl ((dept + 1) mod 256) has_sel ;;
                          idx_dec ;;; ret crit
                      | None => idx_dec ;;; write_null ;;; ret false
                      end
                  | _ => panic
                  end
              end
        end
  end.

End Run.
Arguments ROk {W A}. Arguments RPanic {W A}. Arguments RNoFuel {W A}.
Declare Scope rm_scope.
Notation "x <- m ;; k" := (bind m (fun x => k)) (at level 61, m at next level, right associativity) : rm_scope.
Notation "' p <- m ;; k" := (bind m (fun p => k)) (at level 61, p pattern, m at next level, right associativity) : rm_scope.
Notation "m ;;; k" := (bind m (fun _ => k)) (at level 61, right associativity) : rm_scope.
Delimit Scope rm_scope with rm.

(** resolver.go 357-397 resolveOperation *)
Definition put_val0 {W} (v : gval) : @rm W unit := fun s => ROk tt (set_vals (upd (r_vals s) 0 (false, v)) (r_idx s) s).
Definition resolve_operation {W} (X : externals W) (S : schema) (res : bytes) (frags : list nat) (rawvars : bytes) (fuel : nat)
  : @rm W bool := (
  skip 2 ;;;
  k <- read res ;;
  if k =? 115 then err (bs "subscriptions are not supported")
  else
    (if k =? 113 then put_val0 (s_qvalue S) else if k =? 109 then put_val0 (s_mvalue S) else ret tt) ;;;
    a <- read res ;;
    dirs <- read res ;;
    if 0 <? dirs then err (bs "operation directives unsupported")
    else
      read_name res ;;;
      at_ <- (if a =? 116 then
                p <- get_pos ;;
                len <- u32 res p ;;
                skip (N.to_nat len + 5) ;;; ret (p + 5)%nat
              else ret O) ;;
      '(_, crit) <- resolve_sel X S res frags rawvars (a =? 116) at_ fuel (if k =? 109 then s_method S else s_query S) 0 true ;;
      ret crit)%rm.
