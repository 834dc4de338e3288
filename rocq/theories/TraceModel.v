(** * Model of tracing: apollo_tracing.go, and resolver.go where it starts, finishes and reports

    A run with [ResolveOptions.Tracing].  The interpreter is the one of Interp.v (which RunSim.v proves to
    be what the bytecode interpreter does), here with the state of the tracer beside the state of
    the resolver: the function of each name does the steps of its counterpart there, and in addition the calls of
    startTrace and finishTrace.  TraceProof.v proves that dropping the tracer gives back Interp.v. *)
From Coq Require Import String NArith ZArith Bool List.
From Verif Require Import RegModel IntroModel.
From Verif Require ParserModel.
From Verif Require Import Base JsonModel Ast ReqModel Schema ResModel EnvModel Interp.
Import ListNotations.
Open Scope N_scope.

(** ** The type of a field as text *)
(** inject_schema.go 202-210 wrapQLTypeInNonNull *)
Definition wrap_non_null (t : qltype * bool) : qltype := if snd t then QNonNull (fst t) else fst t.
(** inject_schema.go 306-419 objToQLType: the kind, the name and the inner type, with isNonNull.  [None] is the nil
    pointer that 952-953 (parse.go) or 317 go on to dereference: a type that was not determined, or one that is not in
    its table.  What an object implements does not matter for its name and is left out. *)
Fixpoint ql_type (S : schema) (o : obj) : option (qltype * bool) :=
  match o with
  | OUndef => None
  | OArray e => match ql_type S e with Some t => Some (QList (wrap_non_null t), false) | None => None end
  | OObjRef n => match slookup (s_types S) n with Some t => Some (QNamed (Some (o_name t)), true) | None => None end
  | OObj n _ => Some (QNamed (Some n), true)
  | OEnum i => match nth_error (s_enums S) i with Some e => Some (QNamed (Some (en_name e)), true) | None => None end
  | OPtr e => match ql_type S e with Some t => Some (fst t, false) | None => None end
  | OMethod (Method istype _ _ _ _ out) =>
      match ql_type S out with Some t => Some (fst t, if istype then snd t else false) | None => None end
  | OIfaceRef n => match slookup (s_ifaces S) n with Some t => Some (QNamed (Some (o_name t)), false) | None => None end
  | OIface n _ _ => Some (QNamed (Some n), false)
  | OData isid k => Some (QNamed (q_name (data_type isid k)), true)
  | OTime => Some (QNamed (q_name ql_time), true)
  end.
(** parse.go 949-974 objToQlTypeName *)
Definition return_type (S : schema) (o : obj) : option bytes :=
  match ql_type S o with Some t => Some (type_name (wrap_non_null t)) | None => None end.

(** ** The tracer *)
(** apollo_tracing.go 29-36 tracerResolver *)
Record tentry := TEntry { te_path : bytes; te_parent : bytes; te_field : bytes; te_return : bytes; te_start : Z; te_dur : Z }.
(** resolver.go 124-130 GetPath *)
Definition get_path_json (p : bytes) : bytes := match p with [] => bs "[]" | _ :: r => [91] ++ r ++ [93] end.
(** the number of times the clock was read, resolver.go 33 prefRecordingStartTime and apollo_tracing.go 26 Resolvers *)
Record tst := TS { ts_reads : nat; ts_pref : Z; ts_log : list tentry }.

Section Trace.
Context {W : Type}.
Variable X : externals W.
Variable S : schema.
Variable rawvars : bytes.
Variable opargs : option (list oparg).
Variable fdefs : list (bytes * bytes * list sel).   (* fragments: name, type, selections *)
(** time.Now: the n-th reading in nanoseconds, any sequence.  Differences are taken to fit in an int64. *)
Variable now : nat -> Z.
Notation st := (rst W).

(** runs with a tracer *)
(* model only, no code: a step of the resolver with the tracer *)
Definition tm (A : Type) := tst -> @bm W (A * tst).
(* model only, no code: a result *)
Definition tret {A} (a : A) : tm A := fun t => bret (a, t).
(* model only, no code: a Go panic *)
Definition tpanic {A} : tm A := fun _ => bpanic.
(* model only, no code: the fuel is used up *)
Definition tnofuel {A} : tm A := fun _ => bnofuel.
(* model only, no code: see [BOut] in Interp.v *)
Definition tnope {A} : tm A := fun _ => bnope.
(* model only, no code: one step after the other *)
Definition tbind {A B} (m : tm A) (f : A -> tm B) : tm B := fun t => bbind (m t) (fun r => f (fst r) (snd r)).
(* model only, no code: a step that leaves the tracer *)
Definition tlift {A} (m : @bm W A) : tm A := fun t => bbind m (fun a => bret (a, t)).
Notation "x <- m ;; k" := (tbind m (fun x => k)) (at level 61, m at next level, right associativity).
Notation "' p <- m ;; k" := (tbind m (fun p => k)) (at level 61, p pattern, m at next level, right associativity).
Notation "m ;;; k" := (tbind m (fun _ => k)) (at level 61, right associativity).

(** resolver.go 1688-1692 startTrace *)
Definition start_trace : tm unit := fun t => bret (tt, TS (Datatypes.S (ts_reads t)) (now (ts_reads t)) (ts_log t)).
(** 1694-1699 finishTrace: offset and duration; apollo_tracing.go 51 and 40 GoStartTime is the first reading of the request *)
Definition finish_trace : tm (Z * Z) := fun t =>
  bret ((ts_pref t - now O, now (ts_reads t) - ts_pref t)%Z, TS (Datatypes.S (ts_reads t)) (ts_pref t) (ts_log t)).
(** 596-612 the entry of a field: [o] is the object, [name] the name of the field and [fo] its type *)
Definition record_field (o : obj) (name : bytes) (fo : obj) : tm unit :=
  '(offset, duration) <- finish_trace ;;
  ret <- tlift (lift (of_opt (return_type S fo))) ;;
  path <- tlift (lift get_path) ;;
  fun t => bret (tt, TS (ts_reads t) (ts_pref t) (ts_log t ++ [TEntry (get_path_json path) (o_name o) name ret offset duration])).

(** resolver.go 399-423 resolveSelectionSet as [b_sels] has it *)
Fixpoint t_sels (fuel : nat) (o : obj) (dept : N) (g : rv) (k : N) (ss : list sel) {struct fuel} : tm (list (bytes * rt) * bool) :=
  match fuel with
  | O => tnofuel
  | Datatypes.S fuel =>
      match ss with
      | [] => tret ([], false)
      | x :: r =>
          '(ms, crit) <-
            match x with
            | SField alias name ds args subs => t_field fuel o dept g k alias name ds args subs
            | SSpread name ds => t_spread fuel o dept g k name ds
            | SInline tname ds subs => t_inline fuel o dept g k tname ds subs
            end ;;
          if crit : bool then tret (ms, true)
          else '(ms', crit) <- t_sels fuel o dept g k r ;; tret (ms ++ ms', crit)
      end
  end
(** 425-468 resolveSpread: an inline fragment *)
with t_inline (fuel : nat) (o : obj) (dept : N) (g : rv) (k : N) (tname : bytes) (ds : list directive) (subs : list sel) {struct fuel}
  : tm (list (bytes * rt) * bool) :=
  match fuel with
  | O => tnofuel
  | Datatypes.S fuel =>
      '(skip_, crit) <- tlift (b_directives X S rawvars opargs fuel 2 ds) ;;
      if crit || skip_ then tret ([], crit)
      else if negb (beqb (o_name o) tname) then tret ([], false)
      else t_sels fuel o dept g k subs
  end
(** 425-504 resolveSpread: the name of a fragment *)
with t_spread (fuel : nat) (o : obj) (dept : N) (g : rv) (k : N) (name : bytes) (ds : list directive) {struct fuel}
  : tm (list (bytes * rt) * bool) :=
  match fuel with
  | O => tnofuel
  | Datatypes.S fuel =>
      '(skip_, crit) <- tlift (b_directives X S rawvars opargs fuel 1 ds) ;;
      if crit || skip_ then tret ([], crit)
      else
        match b_fragment fdefs name with
        | None => b <- tlift (lift (err (bs "fragment " ++ name ++ bs " not defined"))) ;; tret ([], b)
        | Some (n, tname, ss) =>
            match skipn (length name) n with
            | [] => if negb (beqb (o_name o) tname) then tret ([], false) else t_sels fuel o dept g k ss
            | _ :: rest => if negb (beqb (o_name o) rest) then tret ([], false) else tnope
            end
        end
  end
(** 506-621 resolveField: line 507 starts the trace, lines 596-612 record the field *)
with t_field (fuel : nat) (o : obj) (dept : N) (g : rv) (k : N) (alias : option bytes) (name : bytes) (ds : list directive)
    (args : option (list (bytes * value))) (subs : list sel) {struct fuel} : tm (list (bytes * rt) * bool) :=
  match fuel with
  | O => tnofuel
  | Datatypes.S fuel =>
      start_trace ;;;
      let key := match alias with Some a => a | None => name end in
      path <- tlift (lift get_path) ;;
      tlift (lift (put_path (path ++ [44; 34] ++ key ++ [34]))) ;;;
      '(skip_, crit) <- tlift (b_directives X S rawvars opargs fuel 0 ds) ;;
      if crit || skip_ then tlift (lift (put_path path)) ;;; tret ([], crit)
      else
        let cur := cur_of args subs in
        '(t, crit) <-
          match nlookup (o_fields o) (fnv1 name) with
          | None =>
              if beqb name (bs "__typename") then
                if has_sub cur then (b <- tlift (lift (err (bs "cannot have a selection set on this field"))) ;; tret (THole, b))
                else tret (TName (o_name o), false)
              else b <- tlift (lift (err (name ++ bs " does not exists on " ++ o_name o))) ;; tret (TNull, b)
          | Some (Field fo custom idx _ _) =>
              v <- match custom with
                   | Some v => tret (false, v)
                   | None =>
                       match fo with
                       | OMethod (Method true _ _ _ _ _) => tret (fst g, GMethod (snd g) idx)
                       | _ => tlift (lift (field_of g idx))
                       end
                   end ;;
              if k =? 255 then tnope
              else
                r <- t_value fuel fo dept v (k + 1) cur ;;
                record_field o name fo ;;;
                tret r
          end ;;
        tlift (lift (put_path path)) ;;; tret ([(key, t)], crit)
  end
(** 696-915 resolveFieldDataValue *)
with t_value (fuel : nat) (o : obj) (dept : N) (g : rv) (k : N) (cur : cursor) {struct fuel} : tm (rt * bool) :=
  match fuel with
  | O => tnofuel
  | Datatypes.S fuel =>
      if (match cur with CArgs _ _ => true | _ => false end) && negb (is_method o) && negb (is_method (behind_ptr o)) then
        b <- tlift (lift (err (bs "field arguments not allowed"))) ;; tret (TNull, b)
      else
        match o with
        | OUndef => tret (TNull, false)
        | OArray e =>
            match snd g with
            | GSlice None => tret (TNull, false)
            | GSlice (Some l) | GArray l =>
                if k =? 255 then tnope
                else
                  ts <- (fix elems (n : N) (l : list gval) : tm (list rt) :=
                           match l with
                           | [] => tret []
                           | v :: r =>
                               path <- tlift (lift get_path) ;;
                               tlift (lift (put_path (path ++ [44] ++ dec_of_N n))) ;;;
                               '(t, _) <- t_value fuel e dept (fst g, v) (k + 1) cur ;;
                               tlift (lift (put_path path)) ;;;
                               ts <- elems (n + 1) r ;; tret (t :: ts)
                           end) 0 l ;;
                  tret (TArr ts, false)
            | _ => tpanic
            end
        | OObj _ _ | OObjRef _ =>
            if negb (has_sub cur) then (b <- tlift (lift (err (bs "must have a selection"))) ;; tret (TNull, b))
            else
              match (match o with OObjRef n => slookup (s_types S) n | _ => Some o end) with
              | None => tret (TNull, false)
              | Some t =>
                  let dept := (dept + 1) mod 256 in
                  if dept =? s_maxdepth S then (b <- tlift (lift (err (bs "reached max dept"))) ;; tret (TNull, b))
                  else
                    match cur with
                    | CSels subs => '(ms, crit) <- t_sels fuel t dept g k subs ;; tret (TObj ms, crit)
                    | CLost => match fuel with
                               | O => tnofuel
                               | Datatypes.S _ => b <- tlift (lift (err (bs "unsupported operation u"))) ;; tret (TObj [], b)
                               end
                    | CArgs _ _ => tpanic
                    end
              end
        | OData isid kd =>
            if has_sub cur then (b <- tlift (lift (err (bs "cannot have a selection set on this field"))) ;; tret (TNull, b))
            else
              t <- tlift (value_tree (snd g) kd) ;;
              tret (if isid && negb (match kd with KString => true | _ => false end) then TQuoted t else t, false)
        | OPtr e =>
            match snd g with
            | GPtr None => tret (TNull, false)
            | GPtr (Some v) => t_value fuel e dept (fst g, v) k cur
            | _ => tpanic
            end
        | OMethod (Method istype ins infields outnr errnr out) =>
            match istype, snd g with
            | false, GFunc None => tret (TNull, false)
            | false, GFunc (Some _) | true, GMethod _ _ =>
                '(av, crit, cut) <- tlift (b_args X S rawvars opargs fuel ins infields (match cur with CArgs fs _ => Some fs | _ => None end)) ;;
                if crit : bool then tret (THole, true)
                else
                  let cur := match cur with CArgs _ subs => after_args cut subs | _ => cur end in
                  if fst g then tpanic
                  else
                    w <- tlift (lift get_world) ;;
                    p <- tlift (lift get_path) ;;
                    '(w, outs) <- tlift (lift (of_opt (x_call X w (snd g) av p))) ;;
                    tlift (lift (put_world w)) ;;;
                    (match errnr with
                     | None => tret tt
                     | Some n =>
                         e <- tlift (lift (of_opt (nth_error outs n))) ;;
                         match e with
                         | GErr None => tret tt
                         | GErr (Some m) => tlift (lift (err m)) ;;; tret tt
                         | _ => tpanic
                         end
                     end) ;;;
                    match x_ctxerr X w with
                    | Some m => tlift (lift (err m)) ;;; tret (TNull, false)
                    | None =>
                        v <- tlift (lift (of_opt (nth_error outs outnr))) ;;
                        t_value fuel out dept (false, v) k cur
                    end
            | _, _ => tpanic
            end
        | OEnum i =>
            e <- tlift (lift (of_opt (nth_error (s_enums S) i))) ;;
            t <- tlift (enum_tree (en_kind e) (snd g) (en_entries e)) ;; tret (t, false)
        | OTime =>
            if fst g then tpanic
            else match snd g with GTm t => tret (TTime t, false) | _ => tret (TNull, false) end
        | OIface _ _ _ | OIfaceRef _ =>
            if negb (has_sub cur) then (b <- tlift (lift (err (bs "must have a selection"))) ;; tret (TNull, b))
            else
              match (match o with OIfaceRef n => slookup (s_ifaces S) n | _ => Some o end) with
              | None => tret (TNull, false)
              | Some t =>
                  match snd g with
                  | GIface None => tret (TNull, false)
                  | GIface (Some (tn, pkg, v)) =>
                      if k =? 255 then tnope
                      else
                        match find (fun i => beqb (fst (fst i)) tn && beqb (snd (fst i)) pkg)
                                   (match t with OIface _ _ is => is | _ => [] end) with
                        | Some (_, impl) => t_value fuel impl ((dept + 1) mod 256) (fst g, v) (k + 1) cur
                        | None => tret (TNull, false)
                        end
                  | _ => tpanic
                  end
              end
        end
  end.

End Trace.

(** ** The request *)
(** resolver.go 357-397 resolveOperation as [b_operation] has it *)
Definition t_operation {W} (X : externals W) (S : schema) (rawvars : bytes) (d : document) (op : definition) (now : nat -> Z) (fuel : nat)
  : @tm W (list (bytes * rt) * bool) :=
  match op with
  | DFrag _ _ _ => tpanic
  | DOp kd _ args ds ss =>
      match kd with
      | OpSubscription => tbind (tlift (lift (err (bs "subscriptions are not supported")))) (fun b => tret ([], b))
      | _ =>
          match ds with
          | _ :: _ => tbind (tlift (lift (err (bs "operation directives unsupported")))) (fun b => tret ([], b))
          | [] =>
              t_sels X S rawvars args (frag_defs d) now fuel
                (match kd with OpMutation => s_method S | _ => s_query S end) 0
                (false, match kd with OpMutation => s_mvalue S | _ => s_qvalue S end) 0 ss
          end
      end
  end.
(** apollo_tracing.go 8-17 tracer and 19-22: what is reported.  The times of day are readings of the clock. *)
Record trace := Trace { tr_start : Z; tr_end : Z; tr_dur : Z; tr_parsing : Z * Z; tr_validation : Z * Z; tr_resolvers : list tentry }.
(** resolver.go 196-221: reset (apollo_tracing.go 48-56), startTrace, the parser, finishTrace for Parsing, and the
    offset of Validation; four readings of the clock before the operation runs *)
Definition trace_begin (now : nat -> Z) : tst := TS 4 (now 1%nat) [].
Definition trace_parsing (now : nat -> Z) : Z * Z := (now 1%nat - now 0%nat, now 2%nat - now 1%nat)%Z.
Definition trace_validation (now : nat -> Z) : Z * Z := (now 3%nat - now 1%nat, 0)%Z.
(** apollo_tracing.go 58-63 finish *)
Definition trace_end (now : nat -> Z) (t : tst) : trace :=
  Trace (now 0%nat) (now (ts_reads t)) (now (ts_reads t) - now 0%nat) (trace_parsing now) (trace_validation now) (ts_log t).

(** ** The text: encoding/json on the struct of apollo_tracing.go 8-36 *)
Section Text.
Variable str : bytes -> bytes.     (* encoding/json on a string *)
Variable day : Z -> bytes.         (* time.Time.Format(time.RFC3339Nano) *)
Definition jfield (n : string) (v : bytes) : bytes := [34] ++ bs n ++ [34; 58] ++ v.
Fixpoint commas (l : list bytes) : bytes := match l with [] => [] | [x] => x | x :: r => x ++ [44] ++ commas r end.
Definition jobject (l : list bytes) : bytes := [123] ++ commas l ++ [125].
(** apollo_tracing.go 19-22 tracerStartAndDuration *)
Definition span_json (x : Z * Z) : bytes := jobject [jfield "startOffset" (int_to_json (fst x)); jfield "duration" (int_to_json (snd x))].
(** 29-36 tracerResolver; the path is a json.RawMessage and stays as it is (it contains no space) *)
Definition entry_json (e : tentry) : bytes :=
  jobject [jfield "path" (te_path e); jfield "parentType" (str (te_parent e)); jfield "fieldName" (str (te_field e));
           jfield "returnType" (str (te_return e)); jfield "startOffset" (int_to_json (te_start e)); jfield "duration" (int_to_json (te_dur e))].
(** 8-17 tracer, 24-27 tracerExecution *)
Definition trace_json (t : trace) : bytes :=
  jobject [jfield "version" (uint_to_json 1); jfield "startTime" (str (day (tr_start t))); jfield "endTime" (str (day (tr_end t)));
           jfield "duration" (int_to_json (tr_dur t)); jfield "parsing" (span_json (tr_parsing t)); jfield "validation" (span_json (tr_validation t));
           jfield "execution" (jobject [jfield "resolvers" ([91] ++ commas (map entry_json (tr_resolvers t)) ++ [93])])].

(** resolver.go 163-298 Resolve with Tracing, on a text that was accepted as the document [d] and selects [op]; the result
    of a run with the trace it made *)
Inductive tresult (W : Type) := TDone (out : bytes) (errs : list qerr) (w : W) (tr : trace) | TPanicked | TOutOfFuel | TNoDoc.
Definition resolve_traced {W} (X : externals W) (S : schema) (now : nat -> Z) (fuel : nat) (o : ropts) (w : W) (d : document) (op : definition)
  : tresult W :=
  match t_operation X S (op_vars o) d op now fuel (trace_begin now) (RS O [] [] [] (fun _ => (false, GOther)) 0 None w) with
  | BOk ((ms, _), t) s =>
      let es := map ERun (r_errs s) in
      let tr := trace_end now t in
      let data := (if op_nometa o then [] else data_start) ++ [123] ++ render_members (x_float_json X) ms ++ [125] in
      TDone _ (if op_nometa o then data else data ++ envelope_end es (Some (trace_json tr))) es (r_world s) tr
  | BPanic => TPanicked _
  | BNoFuel => TOutOfFuel _
  | BOut => TNoDoc _   (* outside of what Interp.v describes *)
  end.
(** resolver.go 196-240 and 279-296 with Tracing, on a text for which nothing is executed: the parser reported errors, or
    no operation has the wanted name.  The trace is read back as the operation would have found it; [None] if an operation
    is executed, which is the case of [resolve_traced]. *)
Definition resolve_traced_unrun {W} (now : nat -> Z) (o : ropts) (w : W) (q : bytes) : option (tresult W) :=
  let finish (es : list qerr) :=
    let tr := trace_end now (trace_begin now) in
    let data := (if op_nometa o then [] else data_start) ++ [123; 125] in
    Some (TDone _ (if op_nometa o then data else data ++ envelope_end es (Some (trace_json tr))) es w tr) in
  match ParserModel.parse_query q (target_of o) with
  | ParserModel.Parsed p =>
      match ParserModel.p_errs p, ParserModel.p_tgt p with
      | [], Some _ => None
      | [], None => finish [ERun (RErr (match op_target o with [] => bs "no operator found" | t => bs "no operator with name " ++ t ++ bs " found" end) None)]
      | es, _ => finish (map EParse es)
      end
  | _ => Some (TPanicked _)
  end.
End Text.
Arguments TDone {W}. Arguments TPanicked {W}. Arguments TOutOfFuel {W}. Arguments TNoDoc {W}.
