(** * Model of Resolve, the function behind every request: resolver.go 163-298 *)
From Coq Require Import String NArith ZArith Bool List.
From Verif Require Import Base JsonModel ParserModel ReqModel Schema ResModel.
Import ListNotations.
Open Scope N_scope.

(** errors in ctx.query.Errors: bytecode.ErrorWLocation of the parser, or ErrorWPath / a plain error of the resolver *)
(* resolver.go 319-323, bytecode.go 1260-1264 *)
Inductive qerr := EParse (e : perr) | ERun (e : rerr).
(** resolver.go 152-161 ResolveOptions: the parts not contained in the externals.  [op_trace] is
    [None] without tracing and otherwise the JSON text json.Marshal makes of the trace *)
Record ropts := ROpts { op_nometa : bool; op_target : bytes; op_vars : bytes; op_trace : option bytes }.

(** resolver.go 255-277: one error in the response *)
Definition err_json (e : qerr) : bytes :=
  [123; 34] ++ bs "message" ++ [34; 58] ++
  match e with
  | EParse p => string_to_json (e_msg p) ++
      [44; 34] ++ bs "locations" ++ [34; 58; 91; 123; 34] ++ bs "line" ++ [34; 58] ++ uint_to_json (e_line p) ++
      [44; 34] ++ bs "column" ++ [34; 58] ++ uint_to_json (e_col p) ++ [125; 93]
  | ERun r => string_to_json (re_msg r) ++
      match re_path r with
      | Some (c :: p) => [44; 34] ++ bs "path" ++ [34; 58; 91] ++ (c :: p) ++ [93]
      | _ => []
      end
  end ++ [125].
(** resolver.go 251-278: the errors separated by commas *)
Fixpoint errs_json (es : list qerr) : bytes :=
  match es with
  | [] => []
  | [e] => err_json e
  | e :: r => err_json e ++ [44] ++ errs_json r
  end.
(** resolver.go 242-296: what follows the data *)
Definition envelope_end (es : list qerr) (trace : option bytes) : bytes :=
  match es, trace with
  | [], None => [125]
  | _, _ =>
      match es with [] => [] | _ => [44; 34] ++ bs "errors" ++ [34; 58; 91] ++ errs_json es ++ [93] end ++
      match trace with
      | Some t => [44; 34] ++ bs "extensions" ++ [34; 58; 123; 34] ++ bs "tracing" ++ [34; 58] ++ t ++ [125; 125]
      | None => [44; 34] ++ bs "extensions" ++ [34; 58; 123; 125; 125]
      end
  end.
Definition data_start : bytes := [123; 34] ++ bs "data" ++ [34; 58].

(** the result of Resolve: the bytes in s.Result and the returned errors, with what stays behind in the
    context (the reflect values) and the world; a panic; or no fuel left (model only) *)
Inductive rresult (W : Type) := RDone (out : bytes) (errs : list qerr) (vals : N -> rv) (w : W) | RPanicked | ROutOfFuel.
Arguments RDone {W}. Arguments RPanicked {W}. Arguments ROutOfFuel {W}.

(** resolver.go 163-298 Resolve after parsing (the schema is parsed, [vals] are the reflect values left
    behind by the request before): the parsed query is given by its result *)
Definition resolve_parsed {W} (X : externals W) (S : schema) (fuel : nat) (o : ropts)
  (perrs : list perr) (res : bytes) (frags : list nat) (tgt : option nat) (vals : N -> rv) (w : W) : rresult W :=
  let start := if op_nometa o then [] else data_start in
  let finish (out : bytes) (es : list qerr) := if op_nometa o then out else out ++ envelope_end es (op_trace o) in
  match perrs with
  | [] =>
      match tgt with
      | None =>
          let e := ERun (RErr (match op_target o with
                               | [] => bs "no operator found"
                               | t => bs "no operator with name " ++ t ++ bs " found"
                               end) None) in
          RDone (finish (start ++ [123; 125]) [e]) [e] vals w
      | Some n =>
          match resolve_operation X S res frags (op_vars o) fuel (RS n (start ++ [123]) [] [] vals 0 None w) with
          | ROk _ s => let es := map ERun (r_errs s) in
                       RDone (finish (r_out s ++ [125]) es) es (r_vals s) (r_world s)
          | RPanic => RPanicked
          | RNoFuel => ROutOfFuel
          end
      end
  | _ => let es := map EParse perrs in RDone (finish (start ++ [123; 125]) es) es vals w
  end.
(** the target given to the parser, resolver.go 209-213 *)
Definition target_of (o : ropts) : option bytes := match op_target o with [] => None | t => Some t end.
Definition resolve {W} (X : externals W) (S : schema) (fuel : nat) (o : ropts) (vals : N -> rv) (w : W) (query : bytes) : rresult W :=
  match parse_query query (target_of o) with
  | Parsed p => resolve_parsed X S fuel o (p_errs p) (p_res p) (p_frags p) (p_tgt p) vals w
  | _ => RPanicked
  end.
