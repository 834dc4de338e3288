(** * Model of registration (directives.go, enums.go), of the values kept in a request context
    (resolver.go) and of the printing of type names (parse.go) *)
From Coq Require Import String NArith Bool List.
From Verif Require Import Base NameModel.
Import ListNotations.
Local Open Scope string_scope.
Local Open Scope list_scope.
Open Scope N_scope.

(** ** Directives *)
(** what reflection tells about Directive.Method: directives.go 117-140 *)
Inductive method_kind :=
| MkNil                       (* nil, or a nil func *)
| MkNotNilable                (* a value of a kind for which reflect's IsNil panics: int, string, struct, ... *)
| MkNotFunc                   (* a non-nil map, pointer, channel, ... *)
| MkFunc (outs : list bool).  (* a function; for each result whether its type is DirectiveModifier *)

(** directives.go 48-59: Directive; [dr_where = None] is a nil slice; locations are uint8 *)
Record directive := Dir { dr_name : bytes; dr_where : option (list N); dr_method : method_kind }.

(** directives.go 110-115: the characters of a directive name, ASCII names *)
Definition dir_name_char (c : N) : bool := valid_rest c.

(** directives.go 106-155: checkDirective; the parsed method is left out *)
Inductive check_result := CkOk | CkErr | CkPanic.
Definition check_directive (d : directive) : check_result :=
  match dr_name d with
  | [] => CkErr
  | n => if negb (forallb dir_name_char n) then CkErr
         else match dr_where d with
              | None => CkErr
              | Some _ =>
                  match dr_method d with
                  | MkNil => CkErr
                  | MkNotNilable => CkPanic
                  | MkNotFunc => CkErr
                  | MkFunc [true] => CkOk
                  | MkFunc _ => CkErr
                  end
              end
  end.

(** Schema.definedDirectives: parse.go 58 *)
Definition directives := list (N * list directive).
Fixpoint dirs_at (s : directives) (loc : N) : list directive :=
  match s with
  | [] => []
  | (l, ds) :: r => if l =? loc then ds else dirs_at r loc
  end.
Fixpoint dirs_set (s : directives) (loc : N) (ds : list directive) : directives :=
  match s with
  | [] => [(loc, ds)]
  | (l, ds') :: r => if l =? loc then (loc, ds) :: r else (l, ds') :: dirs_set r loc ds
  end.

(** directives.go 76-104: RegisterDirective *)
Inductive reg_result := RegOk (s : directives) | RegErr (s : directives) | RegPanic.
(** directives.go 88-101: the loop over the locations *)
Fixpoint register_at (s : directives) (d : directive) (locs : list N) : reg_result :=
  match locs with
  | [] => RegOk s
  | l :: r =>
      if existsb (fun x => beqb (dr_name d) (dr_name x)) (dirs_at s l) then RegErr s
      else register_at (dirs_set s l (dirs_at s l ++ [d])) d r
  end.
Definition register_directive (parsed : bool) (s : directives) (d : directive) : reg_result :=
  if parsed then RegErr s
  else match check_directive d with
       | CkErr => RegErr s
       | CkPanic => RegPanic
       | CkOk => register_at s d (match dr_where d with Some w => w | None => [] end)
       end.

(** parse.go 230-271: the directives of a new schema; locations directives.go 13-18 *)
Definition skip_directive := Dir (bs "skip") (Some [0; 1; 2]) (MkFunc [true]).
Definition include_directive := Dir (bs "include") (Some [0; 1; 2]) (MkFunc [true]).
Definition new_directives : directives :=
  [(0, [skip_directive; include_directive]); (1, [skip_directive; include_directive]); (2, [skip_directive; include_directive])].

(** ** Enums *)
(** what reflection tells about the argument of RegisterEnum: enums.go 75-98 *)
Inductive enum_arg :=
| EaNil | EaNotNilable | EaNotMap | EaBadMap                       (* wrong key or element kind *)
| EaNamedKey                                                       (* key type is a defined string type, map not empty *)
| EaInlineType                                                     (* element type without name or package *)
| EaMap (type_name : bytes) (keys : list bytes).                   (* keys in the order of iteration *)
(** enums.go 11-17 *)
Record enum_def := EnumDef { ed_type : bytes; ed_keys : list bytes }.
Inductive enum_result := EnAdded (s : list enum_def) | EnNotAdded (s : list enum_def) | EnErr (s : list enum_def) | EnPanic.
(** enums.go 57-71 and 73-148: RegisterEnum, registerEnumCheck *)
Definition register_enum (parsed : bool) (s : list enum_def) (a : enum_arg) : enum_result :=
  if parsed then EnErr s
  else match a with
       | EaNil | EaNotMap | EaBadMap | EaInlineType => EnErr s
       | EaNotNilable | EaNamedKey => EnPanic
       | EaMap t [] => EnNotAdded s
       | EaMap t ks => if forallb valid_gql_name ks then EnAdded (s ++ [EnumDef t ks]) else EnErr s
       end.
(** enums.go 26-38: getEnum for a type of this name *)
Definition get_enum (s : list enum_def) (name : bytes) : option enum_def :=
  find (fun e => beqb (ed_type e) name) s.
(** parse.go 210-228 and grahql_types.go 34-43, 163-182: the enums of a new schema *)
Definition location_enum := EnumDef (bs "__DirectiveLocation")
  [bs "QUERY"; bs "MUTATION"; bs "SUBSCRIPTION"; bs "FIELD"; bs "FRAGMENT_DEFINITION"; bs "FRAGMENT_SPREAD"; bs "INLINE_FRAGMENT";
   bs "SCHEMA"; bs "SCALAR"; bs "OBJECT"; bs "FIELD_DEFINITION"; bs "ARGUMENT_DEFINITION"; bs "INTERFACE"; bs "UNION"; bs "ENUM";
   bs "ENUM_VALUE"; bs "INPUT_OBJECT"; bs "INPUT_FIELD_DEFINITION"].
Definition kind_enum := EnumDef (bs "__TypeKind")
  [bs "SCALAR"; bs "OBJECT"; bs "INTERFACE"; bs "UNION"; bs "ENUM"; bs "INPUT_OBJECT"; bs "LIST"; bs "NON_NULL"].
Definition new_enums := [location_enum; kind_enum].

(** ** Values of the request context, resolver.go 78-122 *)
Section Ctx.
Variables V C : Type.  (* user values; Go contexts *)
(** Ctx.values: a pointer to a map; the map itself may be nil ([Some None]) *)
Record rctx := RCtx { rc_values : option (option (list (bytes * V))); rc_context : option C }.
Inductive cop :=
| OpSetValue (k : bytes) (v : V)
| OpSetContext (c : option C).

(** map access and assignment *)
(* resolver.go 78-93 *)
Fixpoint vget (m : list (bytes * V)) (k : bytes) : option V :=
  match m with [] => None | (k', v) :: r => if beqb k k' then Some v else vget r k end.
(* resolver.go 95-104 *)
Definition vset (m : list (bytes * V)) (k : bytes) (v : V) : list (bytes * V) := (k, v) :: m.

(** resolver.go 78-83 and 86-92: GetValue, GetValueOk *)
Definition get_value (s : rctx) (k : bytes) : option V :=
  match rc_values s with
  | Some (Some m) => vget m k
  | _ => None
  end.
(** resolver.go 95-103: SetValue; [None] is a panic (assignment to a nil map) *)
Definition set_value (s : rctx) (k : bytes) (v : V) : option rctx :=
  match rc_values s with
  | None => Some (RCtx (Some (Some [(k, v)])) (rc_context s))
  | Some None => None
  | Some (Some m) => Some (RCtx (Some (Some (vset m k v))) (rc_context s))
  end.
(** resolver.go 106-111: GetContext *)
Definition get_context (s : rctx) : option C := rc_context s.
(** resolver.go 114-122: SetContext; the test "ctx == nil" of line 117 is never true here, so a
    missing context is dereferenced: [None] is that panic *)
Definition set_context (s : rctx) (c : option C) : option rctx :=
  match c with
  | None => Some (RCtx (rc_values s) None)
  | Some c => match rc_context s with
              | Some _ => Some (RCtx (rc_values s) (Some c))
              | None => None
              end
  end.
Definition ctx_op (s : rctx) (o : cop) : option rctx :=
  match o with
  | OpSetValue k v => set_value s k v
  | OpSetContext c => set_context s c
  end.
(** a resolver that makes several calls *)
Fixpoint ctx_ops (s : rctx) (os : list cop) : option rctx :=
  match os with
  | [] => Some s
  | o :: r => match ctx_op s o with None => None | Some s' => ctx_ops s' r end
  end.
End Ctx.
Arguments RCtx {V C}. Arguments rc_values {V C}. Arguments rc_context {V C}.
Arguments OpSetValue {V C}. Arguments OpSetContext {V C}. Arguments get_value {V C}. Arguments set_value {V C}.
Arguments get_context {V C}. Arguments set_context {V C}. Arguments ctx_op {V C}. Arguments ctx_ops {V C}.

(** ** Type names *)
(** grahql_types.go 79-109: qlType, the parts used for type names *)
Inductive qltype := QNamed (name : option bytes) | QList (of : qltype) | QNonNull (of : qltype).
(** parse.go 949-974: objToQlTypeName after line 952; [suffix] is the local variable *)
Fixpoint type_name_loop (t : qltype) (suffix : bytes) : bytes :=
  match t with
  | QList t => 91 :: type_name_loop t (suffix ++ [93])
  | QNonNull t => type_name_loop t (suffix ++ [33])
  | QNamed n => (match n with Some n => n | None => bs "Unknown" end) ++ suffix
  end.
Definition type_name (t : qltype) : bytes := type_name_loop t [].
