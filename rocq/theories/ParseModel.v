(** * Model of parse.go: building a schema from Go types

    Errors carry no message here.  What Go keeps in maps is kept in lists with distinct keys;
    the pointers to the methods found so far (parseCtx.parsedMethods) are their positions. *)
From Coq Require Import String Arith NArith ZArith Bool List.
From Verif Require Import Base JsonModel NameModel Schema GoTypes.
Import ListNotations.
Open Scope N_scope.

(** parse.go 86-119 obj as check gives it: references to structs and interfaces are by name, with the
    Go name and package; a method is a position in parsedMethods *)
Inductive pobj :=
| PArray (e : pobj)
| PRef (name goname pkg : bytes)
| PData (isid : bool) (k : kind)
| PPtr (e : pobj)
| PMethod (m : nat)
| PEnum (i : nat)
| PTime
| PIRef (name goname pkg : bytes).
(** what parse.go 86-119 keeps of a field: structFieldIdx (0 for the -1 of inject_schema.go 30, which is not
    used), qlFieldName, hidden, customObjValue *)
Record pfield := PField { pf_obj : pobj; pf_idx : nat; pf_name : bytes; pf_hidden : bool; pf_custom : option gval }.
(** a struct or interface, as stored in Schema.types and Schema.interfaces (parse.go 47-49) *)
Record ptype := PType { pt_name : bytes; pt_goname : bytes; pt_pkg : bytes; pt_fields : list (N * pfield); pt_impls : list pobj }.
(** parse.go 150-165 objMethod; [pm_type] are the arguments of goType *)
Record pmethod := PMeth {
  pm_istype : bool; pm_type : list gtype; pm_ins : list (option gval); pm_infields : list (bytes * (nat * input));
  pm_outnr : nat; pm_errnr : option nat; pm_out : pobj }.

(** Schema and parseCtx while parsing: parse.go 44-65 and 209-214 *)
Record pst := PSt {
  ps_types : list (bytes * ptype); ps_ifaces : list (bytes * ptype); ps_intypes : list (bytes * input);
  ps_unk : nat; ps_unkin : nat; ps_methods : list pmethod }.
Inductive pres (A : Type) := POk (a : A) (s : pst) | PErr | PPanic | PNoFuel.
Arguments POk {A}. Arguments PErr {A}. Arguments PPanic {A}. Arguments PNoFuel {A}.
Definition pm (A : Type) := pst -> pres A.
Definition pret {A} (a : A) : pm A := fun s => POk a s.
Definition perr {A} : pm A := fun _ => PErr.
Definition ppanic {A} : pm A := fun _ => PPanic.
Definition pnofuel {A} : pm A := fun _ => PNoFuel.
Definition pbind {A B} (m : pm A) (f : A -> pm B) : pm B :=
  fun s => match m s with POk a s' => f a s' | PErr => PErr | PPanic => PPanic | PNoFuel => PNoFuel end.
Declare Scope pm_scope.
Notation "x <- m ;; k" := (pbind m (fun x => k)) (at level 61, m at next level, right associativity) : pm_scope.
Notation "m ;;; k" := (pbind m (fun _ => k)) (at level 61, right associativity) : pm_scope.
Local Open Scope pm_scope.
Definition get : pm pst := fun s => POk s s.
Fixpoint mapm {A B} (f : A -> pm B) (l : list A) : pm (list B) :=
  match l with [] => pret [] | x :: r => y <- f x ;; ys <- mapm f r ;; pret (y :: ys) end.
(** assignment to a key of a map *)
Fixpoint sset {A} (l : list (bytes * A)) (k : bytes) (v : A) : list (bytes * A) :=
  match l with [] => [(k, v)] | (k', v') :: r => if beqb k k' then (k, v) :: r else (k', v') :: sset r k v end.
Fixpoint nset {A} (l : list (N * A)) (k : N) (v : A) : list (N * A) :=
  match l with [] => [(k, v)] | (k', v') :: r => if k =? k' then (k, v) :: r else (k', v') :: nset r k v end.
Definition set_type (n : bytes) (t : ptype) : pm unit := fun s =>
  POk tt (PSt (sset (ps_types s) n t) (ps_ifaces s) (ps_intypes s) (ps_unk s) (ps_unkin s) (ps_methods s)).
Definition set_iface (n : bytes) (t : ptype) : pm unit := fun s =>
  POk tt (PSt (ps_types s) (sset (ps_ifaces s) n t) (ps_intypes s) (ps_unk s) (ps_unkin s) (ps_methods s)).
Definition set_intype (n : bytes) (i : input) : pm unit := fun s =>
  POk tt (PSt (ps_types s) (ps_ifaces s) (sset (ps_intypes s) n i) (ps_unk s) (ps_unkin s) (ps_methods s)).
(** parse.go 817: append to parsedMethods *)
Definition add_method (m : pmethod) : pm nat := fun s =>
  POk (length (ps_methods s)) (PSt (ps_types s) (ps_ifaces s) (ps_intypes s) (ps_unk s) (ps_unkin s) (ps_methods s ++ [m])).
(** parse.go 404-405 and 686-687: names for structs without name *)
Definition next_unknown : pm bytes := fun s =>
  POk (bs "__UnknownType" ++ dec_of_N (N.of_nat (Datatypes.S (ps_unk s))))
      (PSt (ps_types s) (ps_ifaces s) (ps_intypes s) (Datatypes.S (ps_unk s)) (ps_unkin s) (ps_methods s)).
Definition next_unknown_in : pm bytes := fun s =>
  POk (bs "__UnknownInput" ++ dec_of_N (N.of_nat (Datatypes.S (ps_unkin s))))
      (PSt (ps_types s) (ps_ifaces s) (ps_intypes s) (ps_unk s) (Datatypes.S (ps_unkin s)) (ps_methods s)).

(** a directive that was registered, directives.go 48-59: name, arguments of its function, what the function does, its locations
    (Where) and its description *)
Record pdir := PDir { pd_name : bytes; pd_type : list gtype; pd_fn : dirfn; pd_where : list N; pd_descr : bytes }.
(** everything Parse looks at: the Go types, renamedTypes (type_rename.go 9), structImplementsMap and
    implementationMap (interfaces.go 8-11), the registered enums and directives (parse.go 57-58; for each
    location the directives as positions in [g_dirs]), and the types of inject_schema.go 12 and 25 *)
Record program := Prog {
  g_decls : list gdecl; g_renamed : list (bytes * bytes);
  g_implements : list (bytes * list gtype); g_implemented : list (bytes * list gtype);
  g_enums : list enum; g_dirs : list pdir; g_dirlocs : list (N * list nat);
  g_qlschema : gtype; g_typefn : gtype }.

Section Parse.
Variable P : program.
Notation decls := (g_decls P).

(** renamedTypes[name], or the name: parse.go 378-382, 452-456, 689-692 *)
Definition rename (n : bytes) : bytes := match slookup (g_renamed P) n with Some m => m | None => n end.
Definition types_of (l : list (bytes * list gtype)) (n : bytes) : list gtype := match slookup l n with Some ts => ts | None => [] end.

(** enums.go 26-38 getEnum with validEnumType (40-54) *)
Definition enum_kind (k : kind) : bool := match k with KInt _ | KUint _ | KString => true | _ => false end.
Fixpoint find_enum (es : list enum) (n : bytes) (i : nat) : option nat :=
  match es with [] => None | e :: r => if beqb (en_name e) n then Some i else find_enum r n (Datatypes.S i) end.
Definition enum_of (t : gtype) : option nat :=
  match t_pkg decls t, t_name decls t with
  | [], _ | _, [] => None
  | _, n => if enum_kind (t_kind decls t) then find_enum (g_enums P) n 0 else None
  end.
(** parse.go 938-947 checkValidIDKind: true if there is no error *)
Definition id_kind (k : kind) : bool := match k with KString | KInt _ | KUint _ => true | _ => false end.

(** parse.go 774-799: which results of a function are the data, the error and the mark AttrIsID;
    [None] is an error *)
Fixpoint outs_loop (i : nat) (outs : list gtype) (outnr errnr : option nat) (isid : bool) : option (option nat * option nat * bool) :=
  match outs with
  | [] => Some (outnr, errnr, isid)
  | t :: r =>
      if is_attr_id decls t then outs_loop (Datatypes.S i) r outnr errnr true
      else if (match t_kind decls t with KInterface => is_error decls t | _ => false end) then
        match errnr with Some _ => None | None => outs_loop (Datatypes.S i) r outnr (Some i) isid end
      else
        match outnr with Some _ => None | None => outs_loop (Datatypes.S i) r (Some i) errnr isid end
  end.

Section Check.
(** the function check itself *)
Variable chk : gtype -> bool -> pm pobj.

(** parse.go 758-818: the part of checkFunction after the name; [ins] are the arguments of the type with receiver *)
Definition check_function (f : gtype) (ins : list gtype) (istype hasid : bool) : pm nat :=
  match f with
  | TFunc _ outs variadic =>
      if variadic then perr
      else match outs with
           | [] => perr
           | _ =>
               match outs_loop 0 outs None None hasid with
               | None | Some (None, _, _) => perr
               | Some (Some outnr, errnr, isid) =>
                   match nth_error outs outnr with
                   | None => ppanic
                   | Some t => out <- chk t isid ;; add_method (PMeth istype ins [] [] outnr errnr out)
                   end
               end
           end
  | _ => ppanic
  end.

(** parse.go 558-579 checkStructField and 418-430: the field of a struct, if it is part of the schema *)
Definition check_field (f : gfield) (i : nat) : pm (option pfield) :=
  match f with
  | GField name anon _ tag t =>
      if anon then pret None
      else match parse_tag tag with
           | TagIgnore => pret None
           | TagErr => perr
           | TagOk cname isid =>
               o <- (match t_kind decls t with
                     | KFunc =>
                         m <- check_function (under decls t) (match under decls t with TFunc ins _ _ => ins | _ => [] end) false isid ;;
                         pret (PMethod m)
                     | _ => chk t isid
                     end) ;;
               let n := match cname with Some n => n | None => format_go_name name end in
               pret (Some (PField o i n false None))
           end
  end.
(** parse.go 415-431: the fields of a struct *)
Fixpoint check_fields (l : list gfield) (i : nat) (acc : list (N * pfield)) : pm (list (N * pfield)) :=
  match l with
  | [] => pret acc
  | f :: r =>
      o <- check_field f i ;;
      check_fields r (Datatypes.S i) (match o with Some f => nset acc (fnv1 (pf_name f)) f | None => acc end)
  end.
(** parse.go 526-546: the methods of a struct or interface; 736-757: their names *)
Fixpoint check_methods (t : gtype) (l : list (bytes * gtype)) (i : nat) (acc : list (N * pfield)) : pm (list (N * pfield)) :=
  match l with
  | [] => pret acc
  | (name, f) :: r =>
      match expose_method name with
      | MPanic => ppanic
      | MHidden => check_methods t r (Datatypes.S i) acc
      | MExposed n =>
          m <- check_function f (method_ins decls t f) true false ;;
          check_methods t r (Datatypes.S i) (nset acc (fnv1 n) (PField (PMethod m) i n false None))
      end
  end.
(** parse.go 408-431, 524-552: a struct, after its name is known *)
Definition check_struct (t : gtype) (n : bytes) (impls : list pobj) : pm pobj :=
  let ty fs := PType n (t_name decls t) (t_pkg decls t) fs impls in
  set_type n (ty []) ;;;
  fs <- check_fields (t_fields decls t) 0 [] ;;
  fs <- check_methods t (t_methods decls t) 0 fs ;;
  set_type n (ty fs) ;;;
  pret (PRef n (t_name decls t) (t_pkg decls t)).
(** parse.go 484-504: one type that implements an interface *)
Definition check_impl (iface : gtype) (t : gtype) : pm pobj :=
  match t_kind decls t, t_name decls t with
  | KStruct, _ :: _ => if implements decls t iface then chk t false else perr
  | _, _ => perr
  end.
(** parse.go 466-504, 524-552: an interface, after its name is known *)
Definition check_iface (t : gtype) (n : bytes) : pm pobj :=
  let ty fs is := PType n (t_name decls t) (t_pkg decls t) fs is in
  set_iface n (ty [] []) ;;;
  match slookup (g_implemented P) (t_name decls t) with
  | None => perr
  | Some ts =>
      impls <- mapm (check_impl t) ts ;;
      fs <- check_methods t (t_methods decls t) 0 [] ;;
      set_iface n (ty fs impls) ;;;
      pret (PIRef n (t_name decls t) (t_pkg decls t))
  end.
End Check.

(** parse.go 359-556 check *)
Fixpoint check (fuel : nat) (t : gtype) (hasid : bool) {struct fuel} : pm pobj :=
  match fuel with
  | O => pnofuel
  | Datatypes.S fuel =>
      if is_time decls t then pret PTime
      else
        match t_kind decls t with
        | KStruct =>
            if hasid then perr
            else
              match t_name decls t with
              | [] => n <- next_unknown ;; check_struct (check fuel) t n []
              | goname =>
                  let n := rename goname in
                  s <- get ;;
                  match slookup (ps_types s) n with
                  | Some v => if beqb (pt_pkg v) (t_pkg decls t) then pret (PRef n (pt_goname v) (pt_pkg v)) else perr
                  | None =>
                      impls <- mapm (fun i => check fuel i false) (types_of (g_implements P) goname) ;;
                      check_struct (check fuel) t n impls
                  end
              end
        | KSlice | KArray => match t_elem decls t with Some e => o <- check fuel e false ;; pret (PArray o) | None => ppanic end
        | KPtr => match t_elem decls t with Some e => o <- check fuel e hasid ;; pret (PPtr o) | None => ppanic end
        | KInterface =>
            if hasid then perr
            else
              match t_name decls t with
              | [] => perr
              | goname =>
                  let n := rename goname in
                  s <- get ;;
                  match slookup (ps_ifaces s) n with
                  | Some v => if beqb (pt_pkg v) (t_pkg decls t) then pret (PIRef n (pt_goname v) (pt_pkg v)) else perr
                  | None => check_iface (check fuel) t n
                  end
              end
        | KFunc | KOther => perr
        | k =>
            match enum_of t with
            | Some i => pret (PEnum i)
            | None => if hasid && negb (id_kind k) then perr else pret (PData hasid k)
            end
        end
  end.

(** parse.go 603-636 checkFunctionInputStruct: [None] if the field is skipped; the name is given along *)
Definition check_input_field (chk : gtype -> bool -> pm input) (f : gfield) (i : nat) : pm (option (bytes * input)) :=
  match f with
  | GField name anon _ tag t =>
      if anon then pret None
      else match parse_tag tag with
           | TagIgnore => pret None
           | TagErr => perr
           | TagOk cname isid =>
               j <- chk t isid ;;
               let n := match cname with Some n => n | None => format_go_name name end in
               pret (Some (n, Input (i_kind j) (i_enum j) (i_isid j) (i_isfile j) (i_istime j) i (i_elem j)
                                    (i_structptr j) (i_structname j) (i_content j) (i_zero j)))
           end
  end.
(** parse.go 709-719: the members of an input struct *)
Fixpoint check_input_fields (chk : gtype -> bool -> pm input) (l : list gfield) (i : nat) (acc : list (bytes * input)) : pm (list (bytes * input)) :=
  match l with
  | [] => pret acc
  | f :: r =>
      o <- check_input_field chk f i ;;
      check_input_fields chk r (Datatypes.S i) (match o with Some (n, j) => sset acc n j | None => acc end)
  end.
(** parse.go 638-734 checkFunctionInput.  The zero value of the type is added to the input. *)
Definition zero_of (fuel : nat) (t : gtype) : pm gval := match zero decls fuel t with Some v => pret v | None => pnofuel end.
Fixpoint check_input (fuel : nat) (t : gtype) (hasid : bool) {struct fuel} : pm input :=
  match fuel with
  | O => pnofuel
  | Datatypes.S fuel =>
      z <- zero_of fuel t ;;
      match t_kind decls t with
      | (KString | KBool | KInt _ | KUint _ | KFloat _) as k =>
          match enum_of t with
          | Some e => pret (Input k (Some e) false false false 0 None false [] [] z)
          | None => if hasid && negb (id_kind k) then perr
                    else pret (Input k None hasid false false 0 None false [] [] z)
          end
      | KPtr =>
          match t_elem decls t with
          | None => ppanic
          | Some e =>
              if is_file_header decls e then pret (Input KPtr None false true false 0 None false [] [] z)
              else j <- check_input fuel e hasid ;; pret (Input KPtr None false false false 0 (Some j) false [] [] z)
          end
      | (KArray | KSlice) as k =>
          match t_elem decls t with
          | None => ppanic
          | Some e => j <- check_input fuel e false ;; pret (Input k None false false false 0 (Some j) false [] [] z)
          end
      | KStruct =>
          if is_time decls t then pret (Input KString None false false true 0 None false [] [] z)
          else
            n <- (match t_name decls t with
                  | [] => next_unknown_in
                  | goname =>
                      s <- get ;;
                      let n := rename goname in
                      pret (match slookup (ps_types s) n with Some _ => n ++ bs "__input" | None => n end)
                  end) ;;
            s <- get ;;
            match slookup (ps_intypes s) n with
            | Some _ => pret tt
            | None =>
                let j c := Input KStruct None false false false 0 None false n c z in
                set_intype n (j []) ;;;
                c <- check_input_fields (check_input fuel) (t_fields decls t) 0 [] ;;
                set_intype n (j c)
            end ;;;
            pret (Input KStruct None false false false 0 None true n [] z)
      | _ => perr
      end
  end.

(** parse.go 842-856: the fields of one argument struct *)
Fixpoint arg_fields (chk : gtype -> bool -> pm input) (l : list gfield) (i nr : nat) (acc : list (bytes * (nat * input)))
  : pm (list (bytes * (nat * input))) :=
  match l with
  | [] => pret acc
  | f :: r =>
      o <- check_input_field chk f i ;;
      arg_fields chk r (Datatypes.S i) nr (match o with Some (n, j) => sset acc n (nr, j) | None => acc end)
  end.
(** parse.go 821-866 checkFunctionIns: the arguments, numbered without the receiver.  [fs] is inFields. *)
Fixpoint fun_ins (fuel : nat) (ts : list gtype) (nr : nat) (ins : list (option gval)) (fs : list (bytes * (nat * input)))
  : pm (list (option gval) * list (bytes * (nat * input))) :=
  match ts with
  | [] => pret (ins, fs)
  | t :: r =>
      let ctxptr := match t_kind decls t, t_elem decls t with KPtr, Some e => is_ctx decls e | _, _ => false end in
      if ctxptr then fun_ins fuel r (Datatypes.S nr) (ins ++ [None]) fs
      else if is_ctx decls t then perr
      else match t_kind decls t with
           | KStruct =>
               z <- zero_of fuel t ;;
               fs <- arg_fields (check_input fuel) (t_fields decls t) 0 nr fs ;;
               fun_ins fuel r (Datatypes.S nr) (ins ++ [Some z]) fs
           | _ => perr
           end
  end.
(** the arguments of a method: the first one is left out for methods of types, parse.go 825-830 *)
Definition method_args (istype : bool) (ts : list gtype) : list gtype := if istype then tl ts else ts.
Fixpoint methods_ins (fuel : nat) (ms : list pmethod) : pm (list pmethod) :=
  match ms with
  | [] => pret []
  | m :: r =>
      p <- fun_ins fuel (method_args (pm_istype m) (pm_type m)) 0 [] [] ;;
      ms <- methods_ins fuel r ;;
      pret (PMeth (pm_istype m) (pm_type m) (fst p) (snd p) (pm_outnr m) (pm_errnr m) (pm_out m) :: ms)
  end.
Fixpoint dirs_ins (fuel : nat) (ds : list pdir) : pm (list dirdef) :=
  match ds with
  | [] => pret []
  | d :: r =>
      p <- fun_ins fuel (pd_type d) 0 [] [] ;;
      ds <- dirs_ins fuel r ;;
      pret (DirDef (pd_name d) (fst p) (snd p) (pd_fn d) :: ds)
  end.

(** inject_schema.go 10-41 injectQLTypes; an error there ends the process.  [sv] is the value of
    getQLSchema, [tf] the function typeResolver. *)
Definition fatal {A} (m : pm A) : pm A := fun s => match m s with PErr => PPanic | r => r end.
Definition add_field (n : bytes) (f : pfield) : pm unit :=
  s <- get ;;
  match slookup (ps_types s) n with
  | Some t => set_type n (PType (pt_name t) (pt_goname t) (pt_pkg t) (nset (pt_fields t) (fnv1 (pf_name f)) f) (pt_impls t))
  | None => ppanic
  end.
Definition inject (fuel : nat) (query : bytes) (sv tf : gval) : pm unit :=
  o <- fatal (check fuel (g_qlschema P) false) ;;
  add_field query (PField o 0 (bs "__schema") true (Some sv)) ;;;
  m <- fatal (check_function (check fuel) (under decls (g_typefn P)) (match under decls (g_typefn P) with TFunc ins _ _ => ins | _ => [] end) false false) ;;
  add_field query (PField (PMethod m) 0 (bs "__type") true (Some tf)).

(** what Parse leaves behind *)
(* parse.go 294-357 *)
Record pschema := PSchema { p_st : pst; p_query : bytes; p_method : bytes; p_dirs : list dirdef }.
(** parse.go 294-357 Parse: the types of queries and methods; [same_ok] is noMethodEqualToQueryChecks; [inj] is
    [None] with SkipGraphqlTypesInjection.  The directives are looked at in the order of [g_dirs] (Go walks over a map). *)
Definition parse (fuel : nat) (qt mt : gtype) (same_ok : bool) (inj : option (gval * gval)) : pm pschema :=
  q <- check fuel qt false ;;
  match q with
  | PRef qn qg qp =>
      m <- check fuel mt false ;;
      match m with
      | PRef mn mg mp =>
          if negb same_ok && beqb (qp ++ qg) (mp ++ mg) then perr
          else
            (match inj with Some (sv, tf) => inject fuel qn sv tf | None => pret tt end) ;;;
            s <- get ;;
            ms <- methods_ins fuel (ps_methods s) ;;
            (fun s => POk tt (PSt (ps_types s) (ps_ifaces s) (ps_intypes s) (ps_unk s) (ps_unkin s) ms)) ;;;
            ds <- dirs_ins fuel (g_dirs P) ;;
            s <- get ;;
            pret (PSchema s qn mn ds)
      | _ => perr
      end
  | _ => perr
  end.
Definition new_pst : pst := PSt [] [] [] 0 0 [].

(** ** The schema as Resolve reads it (Schema.v) *)
(** the type of a value; check gives no method as type of elements or results *)
(* model only, no code: how parse.go 294-357 and Schema.v fit *)
Fixpoint plain (o : pobj) : obj :=
  match o with
  | PArray e => OArray (plain e)
  | PRef n _ _ => OObjRef n
  | PData isid k => OData isid k
  | PPtr e => OPtr (plain e)
  | PMethod _ => OUndef
  | PEnum i => OEnum i
  | PTime => OTime
  | PIRef n _ _ => OIfaceRef n
  end.
(* model only, no code: the same *)
Definition view_obj (ms : list pmethod) (o : pobj) : obj :=
  match o with
  | PMethod i =>
      match nth_error ms i with
      | Some m => OMethod (Method (pm_istype m) (pm_ins m) (pm_infields m) (pm_outnr m) (pm_errnr m) (plain (pm_out m)))
      | None => OUndef
      end
  | _ => plain o
  end.
(* model only, no code: the same *)
Definition view_fields (ms : list pmethod) (fs : list (N * pfield)) : list (N * field) :=
  map (fun e => (fst e, Field (view_obj ms (pf_obj (snd e))) (pf_custom (snd e)) (pf_idx (snd e)) (pf_name (snd e)) (pf_hidden (snd e)))) fs.
(* model only, no code: the same *)
Definition view_type (ms : list pmethod) (t : ptype) : obj := OObj (pt_name t) (view_fields ms (pt_fields t)).
(** the implementations of an interface with the Go names that resolver.go 899 compares *)
Definition view_impl (o : pobj) : bytes * bytes * obj :=
  match o with PRef _ g p | PIRef _ g p => (g, p, plain o) | PTime => (bs "Time", bs "time", plain o) | _ => ([], [], plain o) end.
Definition view_iface (ms : list pmethod) (t : ptype) : obj :=
  OIface (pt_name t) (view_fields ms (pt_fields t)) (map view_impl (pt_impls t)).
Definition or_undef (o : option obj) : obj := match o with Some o => o | None => OUndef end.
Definition view (p : pschema) (qv mv : gval) (maxdepth : N) : schema :=
  let s := p_st p in
  let ms := ps_methods s in
  let types := map (fun e => (fst e, view_type ms (snd e))) (ps_types s) in
  Schema types (ps_intypes s) (map (fun e => (fst e, view_iface ms (snd e))) (ps_ifaces s))
    (or_undef (slookup types (p_query p))) qv (or_undef (slookup types (p_method p))) mv maxdepth (g_enums P)
    (map (fun e => (fst e, flat_map (fun i => match nth_error (p_dirs p) i with Some d => [d] | None => [] end) (snd e))) (g_dirlocs P)).
End Parse.
