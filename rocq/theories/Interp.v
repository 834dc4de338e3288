(** * A reference interpreter on documents

    What the resolver does, said about the document instead of its bytecode: no positions, no
    byte offsets, no stack of reflect values, and the response is a tree.  It is not a model of code of
    its own but a stage of the proofs: RunSim.v shows that the bytecode interpreter of ResModel.v does exactly
    this.  [BOut] is given where the bytecode interpreter leaves the structure of the document:
    - the stack of 256 reflect values is exceeded,
    - a spread reads a fragment whose name is longer than its own as if it was shorter, and goes on,
    - a list literal inside an object literal, a list literal or the arguments of a directive, and
      null as element of a list of pointers. *)
From Coq Require Import String NArith ZArith Bool List.
From Verif Require Import Base JsonModel Ast ReqModel Schema ResModel.
Import ListNotations.
Open Scope N_scope.

(** response trees; [THole] is a value that is missing in the text *)
(* resolver.go 165-299: the response *)
Inductive rt :=
| TNull | TBool (b : bool) | TInt (z : Z) | TFloat (is64 : bool) (b : N) | TStr (s : bytes)
| TName (n : bytes) | TTime (t : gtime) | TQuoted (t : rt)
| TArr (l : list rt) | TObj (m : list (bytes * rt)) | THole.

(** where the bytecode interpreter stands in a field: before its arguments, before its sub-selection,
    or inside the arguments that follow a list literal *)
(* resolver.go 506-621 *)
Inductive cursor := CArgs (fs : list (bytes * value)) (subs : list sel) | CSels (subs : list sel) | CLost.
(* resolver.go 506-621 *)
Definition cur_of (args : option (list (bytes * value))) (subs : list sel) : cursor :=
  match args with Some fs => CArgs fs subs | None => CSels subs end.
(* resolver.go 506-621: hasSubSelection *)
Definition has_sub (c : cursor) : bool := match c with CSels [] => false | _ => true end.
(** after the arguments: [None] all were read, [Some l] a list literal was followed by [l] *)
(* resolver.go 623-653 *)
Definition after_args (st : option (list (bytes * value))) (subs : list sel) : cursor :=
  match st with None => CSels subs | Some [] => CSels [] | Some _ => CLost end.
(* resolver.go 1381-1397 *)
Definition is_ptr (i : input) : bool := match i_kind i with KPtr => negb (i_isfile i) | _ => false end.
(* resolver.go 1399-1625 *)
Definition is_list (v : value) : bool := match v with VList _ => true | _ => false end.
(* resolver.go 425-504 *)
Fixpoint is_prefix (a b : bytes) : bool :=
  match a, b with
  | [], _ => true
  | x :: a, y :: b => (x =? y) && is_prefix a b
  | _, _ => false
  end.

Section Interp.
Context {W : Type}.
Variable X : externals W.
Variable S : schema.
Variable rawvars : bytes.
Variable opargs : option (list oparg).
Variable fdefs : list (bytes * bytes * list sel).   (* fragments: name, type, selections *)
Notation st := (rst W).

(* model only, no code: the result of a step *)
Inductive bout (A : Type) := BOk (a : A) (s : st) | BPanic | BNoFuel | BOut.
Arguments BOk {A}. Arguments BPanic {A}. Arguments BNoFuel {A}. Arguments BOut {A}.
(* model only, no code: a step *)
Definition bm (A : Type) := st -> bout A.
(* model only, no code: a result *)
Definition bret {A} (a : A) : bm A := fun s => BOk a s.
(* model only, no code: a Go panic *)
Definition bpanic {A} : bm A := fun _ => BPanic.
(* model only, no code: the fuel is used up *)
Definition bnofuel {A} : bm A := fun _ => BNoFuel.
(* model only, no code: the structure of the document is left *)
Definition bnope {A} : bm A := fun _ => BOut.
(* model only, no code: one step after the other *)
Definition bbind {A B} (m : bm A) (f : A -> bm B) : bm B :=
  fun s => match m s with BOk a s' => f a s' | BPanic => BPanic | BNoFuel => BNoFuel | BOut => BOut end.
(* model only, no code: a step of ResModel.v *)
Definition lift {A} (m : @rm W A) : bm A :=
  fun s => match m s with ROk a s' => BOk a s' | RPanic => BPanic | RNoFuel => BNoFuel end.
Notation "x <- m ;; k" := (bbind m (fun x => k)) (at level 61, m at next level, right associativity).
Notation "' p <- m ;; k" := (bbind m (fun p => k)) (at level 61, p pattern, m at next level, right associativity).
Notation "m ;;; k" := (bbind m (fun _ => k)) (at level 61, right associativity).

(** ** Arguments *)
(* resolver.go 1381-1397 checkInputIsPtr *)
Definition b_ptr (g : rv) (i : input) (whenptr : rv -> input -> bm bres) (otherwise : bm bres) : bm bres :=
  match i_kind i with
  | KPtr =>
      if i_isfile i then otherwise
      else
        e <- lift (of_opt (i_elem i)) ;;
        '(v, set_, crit) <- whenptr (false, i_zero e) e ;;
        if crit : bool then bret (snd g, false, true)
        else if set_ : bool then (v' <- lift (set_any g (GPtr (Some v))) ;; bret (v', true, false))
        else bret (snd g, false, false)
  | _ => otherwise
  end.
(* resolver.go 917-948 findOperatorArgument *)
Fixpoint b_find (fuel : nat) (name : bytes) (l : list oparg) : bm (option oparg) :=
  match fuel with
  | O => bnofuel
  | Datatypes.S fuel =>
      match l with
      | [] => bret None
      | a :: r => if beqb (oa_name a) name then bret (Some a) else b_find fuel name r
      end
  end.
(* resolver.go 917-948 findOperatorArgument *)
Definition b_find_arg (fuel : nat) (name : bytes) : bm (option oparg) :=
  match opargs with Some l => b_find fuel name l | None => bret None end.
(* resolver.go 956-967 *)
Fixpoint b_marks (fuel : nat) (i : input) (t : tyref) (name : bytes) : bm (option input * bytes) :=
  match t with
  | TyName n _ => bret (Some i, n)
  | TyList t _ =>
      match fuel with
      | O => bnofuel
      | Datatypes.S fuel =>
          match i_kind i with
          | KSlice => e <- lift (of_opt (i_elem i)) ;; b_marks fuel e t name
          | k => lift (err (bs "variable $" ++ name ++ bs " cannot be bind to " ++ kind_string k)) ;;; bret (None, [])
          end
      end
  end.
(** the members of an object literal; the second result is [Some r] if a list literal was met, and
    [r] follows it *)
(* resolver.go 1629-1656 walkInputObject *)
Fixpoint b_walk {A : Type} (fuel : nat) (onkey : A -> bytes -> value -> bm (A * bool)) (ms : list (bytes * value)) (a : A)
  : bm (A * bool * option (list (bytes * value))) :=
  match fuel with
  | O => bnofuel
  | Datatypes.S fuel =>
      match ms with
      | [] => bret (a, false, None)
      | (k, v) :: r =>
          '(a, crit) <- onkey a k v ;;
          if crit : bool then bret (a, true, None)
          else if is_list v then match fuel with O => bnofuel | Datatypes.S _ => bret (a, false, Some r) end
          else b_walk fuel onkey r a
      end
  end.

(* resolver.go 1399-1625 bindInputToGoValue with 950-1044 bindOperatorArgumentTo *)
Fixpoint b_input (fuel : nat) (g : rv) (i : input) (v : value) (vars_ok : bool) {struct fuel} : bm bres :=
  match fuel with
  | O => bnofuel
  | Datatypes.S fuel =>
  b_ptr g i
    (fun g i => match v with VNull => bret (snd g, false, false) | _ => b_input fuel g i v vars_ok end)
    (match v with
     | VVar name =>
         if negb vars_ok then lift (fail g (bs "variables are not allowed here"))
         else
           a <- b_find_arg fuel name ;;
           match a with
           | None => lift (fail g (bs "variable " ++ name ++ bs " not defined"))
           | Some a => b_oparg fuel g i name a
           end
     | VInt lit => lift (int_literal X g lit)
     | VFloat lit =>
         match kind_of (snd g) with
         | KFloat _ =>
             match x_parse_float X lit with
             | inl b => v <- lift (set_float X g b) ;; bret (v, true, false)
             | inr e => lift (fail g e)
             end
         | _ => lift (fail g (bs "cannot assign float to " ++ x_gostring X (snd g)))
         end
     | VStr s => lift (assign_string X S g i s)
     | VBool b =>
         match kind_of (snd g) with
         | KBool => v <- lift (set_bool g b) ;; bret (v, true, false)
         | _ => lift (fail g (bs "cannot assign boolean to " ++ x_gostring X (snd g)))
         end
     | VNull => bret (snd g, false, false)
     | VEnum name =>
         match i_enum i with
         | None => lift (fail g (bs "cannot assign enum to non enum value"))
         | Some n => e <- lift (of_opt (nth_error (s_enums S) n)) ;; lift (assign_enum g e name)
         end
     | VList vs =>
         match kind_of (snd g) with
         | KArray => lift (fail g (bs "fixed length arrays not supported"))
         | KSlice =>
             (fix elems (n : nat) (vs : list value) (acc : list gval) : bm bres :=
                match vs with
                | [] => v <- lift (set_any g (GSlice (Some acc))) ;; bret (v, true, false)
                | x :: r =>
                    match n with
                    | O => bnofuel
                    | Datatypes.S n =>
                        ei <- lift (of_opt (i_elem i)) ;;
                        '(v, _, crit) <- b_input fuel (false, i_zero ei) ei x vars_ok ;;
                        if crit : bool then bret (snd g, false, true)
                        else if is_list x || (match x with VNull => is_ptr ei | _ => false end) then bnope
                        else elems n r (acc ++ [v])
                    end
                end) fuel vs []
         | _ => lift (fail g (bs "cannot assign list to " ++ x_gostring X (snd g)))
         end
     | VObj ms =>
         match kind_of (snd g) with
         | KStruct =>
             c <- lift (content_of S i) ;;
             '(v, set_, crit, cut) <-
               b_walk fuel
                 (fun (a : gval * bool) key x =>
                    let '(v, set_) := a in
                    match slookup c key with
                    | None => b <- lift (err (bs "undefined property " ++ key)) ;; bret ((v, set_), b)
                    | Some fi =>
                        f <- lift (field_of (fst g, v) (i_field fi)) ;;
                        '(fv, fset, crit) <- b_input fuel f fi x vars_ok ;;
                        bret ((put_field v (i_field fi) fv, fset), crit)
                    end) ms (snd g, true) ;;
             match cut with
             | Some _ => bnope
             | None => bret (v, set_, crit)
             end
         | _ => lift (fail g (bs "cannot assign object to " ++ x_gostring X (snd g)))
         end
     end)
  end
with b_oparg (fuel : nat) (g : rv) (i : input) (name : bytes) (a : oparg) {struct fuel} : bm bres :=
  match fuel with
  | O => bnofuel
  | Datatypes.S fuel =>
      '(ri, tname) <- b_marks fuel i (oa_type a) name ;;
      match ri with
      | None => bret (snd g, false, true)
      | Some ri =>
          mis <- lift (type_mismatch S ri tname) ;;
          match mis with
          | Some m => lift (fail g m)
          | None =>
              '(v, set_, found, crit) <- lift (bind_external X S rawvars fuel g i name) ;;
              if crit : bool then bret (v, set_, true)
              else if found : bool then bret (v, set_, false)
              else match oa_default a with
                   | None => lift (fail g (bs "variable has no value nor default"))
                   | Some d => b_input fuel g i d false
                   end
          end
      end
  end.

(* resolver.go 623-653 callQlMethod up to the call *)
Definition b_args (fuel : nat) (ins : list (option gval)) (infields : list (bytes * (nat * input))) (args : option (list (bytes * value)))
  : bm (list gval * bool * option (list (bytes * value))) :=
  match args with
  | Some ms =>
      b_walk fuel
        (fun (fi : list gval) key x =>
           match slookup infields key with
           | None => b <- lift (err (bs "undefined input: " ++ key)) ;; bret (fi, b)
           | Some (n, i) =>
               a <- lift (of_opt (nth_error fi n)) ;;
               f <- lift (field_of (false, a) (i_field i)) ;;
               '(v, _, crit) <- b_input fuel f i x true ;;
               bret (upd_nth fi n (put_field a (i_field i) v), crit)
           end) ms (zero_args ins)
  | None => bret (zero_args ins, false, None)
  end.

(** ** Directives *)
(* resolver.go 655-694 resolveDirective *)
Definition b_directive (fuel : nat) (loc : N) (x : directive) : bm (bool * bool) :=
  match nlookup (s_dirs S) loc with
  | None => b <- lift (err (bs "unknown directive " ++ d_name x)) ;; bret (false, b)
  | Some ds =>
      match find (fun d => beqb (dd_name d) (d_name x)) ds with
      | None => b <- lift (err (bs "unknown directive " ++ d_name x)) ;; bret (false, b)
      | Some d =>
          '(args, crit, cut) <- b_args fuel (dd_ins d) (dd_infields d) (d_args x) ;;
          if crit : bool then bret (false, true)
          else
            match cut with
            | Some _ => bnope
            | None =>
                match dd_fn d, args with
                | DSkip, [GStruct [(_, GBool b)]] => bret (b, false)
                | DInclude, [GStruct [(_, GBool b)]] => bret (negb b, false)
                | DUser f, _ =>
                    w <- lift get_world ;;
                    p <- lift get_path ;;
                    '(w, b) <- lift (of_opt (x_dir X w f args p)) ;;
                    lift (put_world w) ;;; bret (b, false)
                | _, _ => bpanic
                end
            end
      end
  end.
(* resolver.go 450-456, 543-558 *)
Fixpoint b_directives (fuel : nat) (loc : N) (l : list directive) : bm (bool * bool) :=
  match l with
  | [] => bret (false, false)
  | x :: r =>
      '(skip_, crit) <- b_directive fuel loc x ;;
      if crit || skip_ then bret (true, crit) else b_directives fuel loc r
  end.

(** ** Values *)
(* resolver.go 1658-1686 valueToJSON *)
Definition value_tree (v : gval) (k : kind) : bm rt :=
  match k with
  | KString => match v with GString s => bret (TStr s) | _ => bpanic end
  | KBool => match v with GBool b => bret (TBool b) | _ => bpanic end
  | KInt _ => match v with GInt _ z => bret (TInt z) | _ => bpanic end
  | KUint _ => match v with GUint _ n => bret (TInt (Z.of_N n)) | _ => bpanic end
  | KFloat is64 => match v with GFloat _ b => bret (TFloat is64 b) | _ => bpanic end
  | _ => bret TNull
  end.
(* resolver.go 835-862 *)
Fixpoint enum_tree (k : kind) (v : gval) (es : list (bytes * gval)) : bm rt :=
  match es with
  | [] => bret TNull
  | (n, e) :: r => b <- lift (same_enum_value k v e) ;; if b : bool then bret (TName n) else enum_tree k v r
  end.
(** the fragment a spread finds: the first whose name starts with the name of the spread *)
(* resolver.go 425-504 resolveSpread *)
Definition b_fragment (name : bytes) : option (bytes * bytes * list sel) :=
  find (fun f => is_prefix name (fst (fst f))) fdefs.

(** ** Selections: the members of the response, and criticalErr; [g] is the current value, [k] the
    number of values below it *)
(* resolver.go 399-621, 696-915: resolveSelectionSet, resolveSpread, resolveField, resolveFieldDataValue *)
Fixpoint b_sels (fuel : nat) (o : obj) (dept : N) (g : rv) (k : N) (ss : list sel) {struct fuel} : bm (list (bytes * rt) * bool) :=
  match fuel with
  | O => bnofuel
  | Datatypes.S fuel =>
      match ss with
      | [] => bret ([], false)
      | x :: r =>
          '(ms, crit) <-
            match x with
            | SField alias name ds args subs => b_field fuel o dept g k alias name ds args subs
            | SSpread name ds => b_spread fuel o dept g k name ds
            | SInline tname ds subs => b_inline fuel o dept g k tname ds subs
            end ;;
          if crit : bool then bret (ms, true)
          else '(ms', crit) <- b_sels fuel o dept g k r ;; bret (ms ++ ms', crit)
      end
  end
with b_inline (fuel : nat) (o : obj) (dept : N) (g : rv) (k : N) (tname : bytes) (ds : list directive) (subs : list sel) {struct fuel}
  : bm (list (bytes * rt) * bool) :=
  match fuel with
  | O => bnofuel
  | Datatypes.S fuel =>
      '(skip_, crit) <- b_directives fuel 2 ds ;;
      if crit || skip_ then bret ([], crit)
      else if negb (beqb (o_name o) tname) then bret ([], false)
      else b_sels fuel o dept g k subs
  end
with b_spread (fuel : nat) (o : obj) (dept : N) (g : rv) (k : N) (name : bytes) (ds : list directive) {struct fuel}
  : bm (list (bytes * rt) * bool) :=
  match fuel with
  | O => bnofuel
  | Datatypes.S fuel =>
      '(skip_, crit) <- b_directives fuel 1 ds ;;
      if crit || skip_ then bret ([], crit)
      else
        match b_fragment name with
        | None => b <- lift (err (bs "fragment " ++ name ++ bs " not defined")) ;; bret ([], b)
        | Some (n, tname, ss) =>
            match skipn (length name) n with
            | [] => if negb (beqb (o_name o) tname) then bret ([], false) else b_sels fuel o dept g k ss
            | _ :: rest => if negb (beqb (o_name o) rest) then bret ([], false) else bnope
            end
        end
  end
with b_field (fuel : nat) (o : obj) (dept : N) (g : rv) (k : N) (alias : option bytes) (name : bytes) (ds : list directive)
    (args : option (list (bytes * value))) (subs : list sel) {struct fuel} : bm (list (bytes * rt) * bool) :=
  match fuel with
  | O => bnofuel
  | Datatypes.S fuel =>
      let key := match alias with Some a => a | None => name end in
      path <- lift get_path ;;
      lift (put_path (path ++ [44; 34] ++ key ++ [34])) ;;;
      '(skip_, crit) <- b_directives fuel 0 ds ;;
      if crit || skip_ then lift (put_path path) ;;; bret ([], crit)
      else
        let cur := cur_of args subs in
        '(t, crit) <-
          match nlookup (o_fields o) (fnv1 name) with
          | None =>
              if beqb name (bs "__typename") then
                if has_sub cur then (b <- lift (err (bs "cannot have a selection set on this field")) ;; bret (THole, b))
                else bret (TName (o_name o), false)
              else b <- lift (err (name ++ bs " does not exists on " ++ o_name o)) ;; bret (TNull, b)
          | Some (Field fo custom idx _ _) =>
              v <- match custom with
                   | Some v => bret (false, v)
                   | None =>
                       match fo with
                       | OMethod (Method true _ _ _ _ _) => bret (fst g, GMethod (snd g) idx)
                       | _ => lift (field_of g idx)
                       end
                   end ;;
              if k =? 255 then bnope else b_value fuel fo dept v (k + 1) cur
          end ;;
        lift (put_path path) ;;; bret ([(key, t)], crit)
  end
with b_value (fuel : nat) (o : obj) (dept : N) (g : rv) (k : N) (cur : cursor) {struct fuel} : bm (rt * bool) :=
  match fuel with
  | O => bnofuel
  | Datatypes.S fuel =>
      if (match cur with CArgs _ _ => true | _ => false end) && negb (is_method o) && negb (is_method (behind_ptr o)) then
        b <- lift (err (bs "field arguments not allowed")) ;; bret (TNull, b)
      else
        match o with
        | OUndef => bret (TNull, false)
        | OArray e =>
            match snd g with
            | GSlice None => bret (TNull, false)
            | GSlice (Some l) | GArray l =>
                if k =? 255 then bnope
                else
                  ts <- (fix elems (n : N) (l : list gval) : bm (list rt) :=
                           match l with
                           | [] => bret []
                           | v :: r =>
                               path <- lift get_path ;;
                               lift (put_path (path ++ [44] ++ dec_of_N n)) ;;;
                               '(t, _) <- b_value fuel e dept (fst g, v) (k + 1) cur ;;
                               lift (put_path path) ;;;
                               ts <- elems (n + 1) r ;; bret (t :: ts)
                           end) 0 l ;;
                  bret (TArr ts, false)
            | _ => bpanic
            end
        | OObj _ _ | OObjRef _ =>
            if negb (has_sub cur) then (b <- lift (err (bs "must have a selection")) ;; bret (TNull, b))
            else
              match (match o with OObjRef n => slookup (s_types S) n | _ => Some o end) with
              | None => bret (TNull, false)
              | Some t =>
                  let dept := (dept + 1) mod 256 in
                  if dept =? s_maxdepth S then (b <- lift (err (bs "reached max dept")) ;; bret (TNull, b))
                  else
                    match cur with
                    | CSels subs => '(ms, crit) <- b_sels fuel t dept g k subs ;; bret (TObj ms, crit)
                    | CLost => match fuel with
                               | O => bnofuel
                               | Datatypes.S _ => b <- lift (err (bs "unsupported operation u")) ;; bret (TObj [], b)
                               end
                    | CArgs _ _ => bpanic
                    end
              end
        | OData isid kd =>
            if has_sub cur then (b <- lift (err (bs "cannot have a selection set on this field")) ;; bret (TNull, b))
            else
              t <- value_tree (snd g) kd ;;
              bret (if isid && negb (match kd with KString => true | _ => false end) then TQuoted t else t, false)
        | OPtr e =>
            match snd g with
            | GPtr None => bret (TNull, false)
            | GPtr (Some v) => b_value fuel e dept (fst g, v) k cur
            | _ => bpanic
            end
        | OMethod (Method istype ins infields outnr errnr out) =>
            match istype, snd g with
            | false, GFunc None => bret (TNull, false)
            | false, GFunc (Some _) | true, GMethod _ _ =>
                '(av, crit, cut) <- b_args fuel ins infields (match cur with CArgs fs _ => Some fs | _ => None end) ;;
                if crit : bool then bret (THole, true)
                else
                  let cur := match cur with CArgs _ subs => after_args cut subs | _ => cur end in
                  if fst g then bpanic
                  else
                    w <- lift get_world ;;
                    p <- lift get_path ;;
                    '(w, outs) <- lift (of_opt (x_call X w (snd g) av p)) ;;
                    lift (put_world w) ;;;
                    (match errnr with
                     | None => bret tt
                     | Some n =>
                         e <- lift (of_opt (nth_error outs n)) ;;
                         match e with
                         | GErr None => bret tt
                         | GErr (Some m) => lift (err m) ;;; bret tt
                         | _ => bpanic
                         end
                     end) ;;;
                    match x_ctxerr X w with
                    | Some m => lift (err m) ;;; bret (TNull, false)
                    | None =>
                        v <- lift (of_opt (nth_error outs outnr)) ;;
                        b_value fuel out dept (false, v) k cur
                    end
            | _, _ => bpanic
            end
        | OEnum i =>
            e <- lift (of_opt (nth_error (s_enums S) i)) ;;
            t <- enum_tree (en_kind e) (snd g) (en_entries e) ;; bret (t, false)
        | OTime =>
            if fst g then bpanic
            else match snd g with GTm t => bret (TTime t, false) | _ => bret (TNull, false) end
        | OIface _ _ _ | OIfaceRef _ =>
            if negb (has_sub cur) then (b <- lift (err (bs "must have a selection")) ;; bret (TNull, b))
            else
              match (match o with OIfaceRef n => slookup (s_ifaces S) n | _ => Some o end) with
              | None => bret (TNull, false)
              | Some t =>
                  match snd g with
                  | GIface None => bret (TNull, false)
                  | GIface (Some (tn, pkg, v)) =>
                      if k =? 255 then bnope
                      else
                        match find (fun i => beqb (fst (fst i)) tn && beqb (snd (fst i)) pkg)
                                   (match t with OIface _ _ is => is | _ => [] end) with
                        | Some (_, impl) => b_value fuel impl ((dept + 1) mod 256) (fst g, v) (k + 1) cur
                        | None => bret (TNull, false)
                        end
                  | _ => bpanic
                  end
              end
        end
  end.
End Interp.
Arguments BOk {W A}. Arguments BPanic {W A}. Arguments BNoFuel {W A}. Arguments BOut {W A}.

(** ** The operation *)
(* bytecode.go 167: FragmentLocations *)
Definition frag_defs (d : document) : list (bytes * bytes * list sel) :=
  flat_map (fun x => match x with DFrag n t ss => [(n, t, ss)] | _ => [] end) d.
(* resolver.go 357-397 resolveOperation *)
Definition b_operation {W} (X : externals W) (S : schema) (rawvars : bytes) (d : document) (op : definition) (fuel : nat)
  : @bm W (list (bytes * rt) * bool) :=
  match op with
  | DFrag _ _ _ => bpanic
  | DOp kd _ args ds ss =>
      match kd with
      | OpSubscription => bbind (lift (err (bs "subscriptions are not supported"))) (fun b => bret ([], b))
      | _ =>
          match ds with
          | _ :: _ => bbind (lift (err (bs "operation directives unsupported"))) (fun b => bret ([], b))
          | [] =>
              b_sels X S rawvars args (frag_defs d) fuel
                (match kd with OpMutation => s_method S | _ => s_query S end) 0
                (false, match kd with OpMutation => s_mvalue S | _ => s_qvalue S end) 0 ss
          end
      end
  end.

(** ** The text of a tree *)
Section Render.
Variable fl : bool -> N -> bytes.   (* x_float_json *)
(* resolver.go 696-915, 1658-1686: what is written *)
Fixpoint render (t : rt) : bytes :=
  match t with
  | TNull => bs "null"
  | TBool b => if b then bs "true" else bs "false"
  | TInt z => int_to_json z
  | TFloat is64 b => fl is64 b
  | TStr s => string_to_json s
  | TName n => [34] ++ n ++ [34]
  | TTime t => [34] ++ time_to_iso t ++ [34]
  | TQuoted t => [34] ++ render t ++ [34]
  | TArr l => [91] ++ (fix elems (l : list rt) : bytes :=
                         match l with [] => [] | [t] => render t | t :: r => render t ++ [44] ++ elems r end) l ++ [93]
  | TObj m => [123] ++ (fix members (m : list (bytes * rt)) : bytes :=
                          match m with
                          | [] => []
                          | [(k, t)] => [34] ++ k ++ [34; 58] ++ render t
                          | (k, t) :: r => [34] ++ k ++ [34; 58] ++ render t ++ [44] ++ members r
                          end) m ++ [125]
  | THole => []
  end.
(** the members, each after a comma unless it is the first *)
(* resolver.go 399-423: the members after the first *)
Fixpoint render_rest (m : list (bytes * rt)) : bytes :=
  match m with
  | [] => []
  | (k, t) :: r => [44; 34] ++ k ++ [34; 58] ++ render t ++ render_rest r
  end.
(* resolver.go 399-423 *)
Definition render_members (m : list (bytes * rt)) : bytes :=
  match m with
  | [] => []
  | (k, t) :: r => [34] ++ k ++ [34; 58] ++ render t ++ render_rest r
  end.
(* resolver.go 506-621: addCommaBefore *)
Definition render_sep (first : bool) (m : list (bytes * rt)) : bytes := if first then render_members m else render_rest m.
(* resolver.go 696-915: the elements of a list *)
Fixpoint render_elems (l : list rt) : bytes :=
  match l with [] => [] | [t] => render t | t :: r => render t ++ [44] ++ render_elems r end.
End Render.
