(** * Model of the registration of implementations (interfaces.go) and of names (type_rename.go) *)
From Coq Require Import String Arith NArith Bool List.
From Verif Require Import Base NameModel Schema GoTypes ParseModel.
Import ListNotations.
Open Scope N_scope.

(** assignment to a Go map *)
(* the assignments to the maps in interfaces.go and type_rename.go *)
Fixpoint sset {A} (l : list (bytes * A)) (k : bytes) (v : A) : list (bytes * A) :=
  match l with [] => [(k, v)] | (k', v') :: r => if beqb k k' then (k, v) :: r else (k', v') :: sset r k v end.

(** interfaces.go 7-11: implementationMap and structImplementsMap *)
Record links := Links { lk_implemented : list (bytes * list gtype); lk_implements : list (bytes * list gtype) }.

Section Link.
Variable decls : list gdecl.
(** interfaces.go 34, 48: the name or the path is empty *)
Definition nameless (t : gtype) : bool := match t_name decls t, t_pkg decls t with [], _ | _, [] => true | _, _ => false end.
(** interfaces.go 59-61: same name and path *)
Definition same_name (t u : gtype) : bool := beqb (t_name decls u) (t_name decls t) && beqb (t_pkg decls u) (t_pkg decls t).
(** interfaces.go 19-73: Implements.  The arguments are the types reflect.TypeOf finds, [None] for nil; the result [None] is a panic *)
Definition implements_call (s : links) (interface_value type_value : option gtype) : option links :=
  match interface_value with
  | None => None
  | Some iv =>
      match t_kind decls iv, t_elem decls iv with
      | KPtr, Some i =>
          match t_kind decls i with
          | KInterface =>
              if nameless i then None
              else match type_value with
                   | None => None
                   | Some t =>
                       match t_kind decls t with
                       | KStruct =>
                           if nameless t then None
                           else if negb (implements decls t i) then None
                           else
                             let ts := types_of (lk_implemented s) (t_name decls i) in
                             if existsb (same_name t) ts then Some s
                             else Some (Links (sset (lk_implemented s) (t_name decls i) (ts ++ [t]))
                                              (sset (lk_implements s) (t_name decls t) (types_of (lk_implements s) (t_name decls t) ++ [i])))
                       | _ => None
                       end
                   end
          | _ => None
          end
      | _, _ => None
      end
  end.
(** the program starts with empty maps; interfaces.go 8, 11 *)
Fixpoint implements_calls (s : links) (l : list (option gtype * option gtype)) : option links :=
  match l with
  | [] => Some s
  | (i, t) :: r => match implements_call s i t with Some s => implements_calls s r | None => None end
  end.
Definition no_links : links := Links [] [].

(** type_rename.go 13-39: TypeRename; log.Panicf and the call of a method of the nil type panic *)
Definition type_rename (s : list (bytes * bytes)) (go_type : option gtype) (new_name : bytes) (force : list bool) : option (list (bytes * bytes)) :=
  match go_type with
  | None => None
  | Some t =>
      match t_name decls t with
      | [] => None
      | name =>
          match t_kind decls t with
          | KStruct =>
              match trim_space new_name with
              | [] => None
              | n =>
                  if match force with true :: _ => false | _ => true end && negb (valid_gql_name n) then None
                  else Some (sset s name n)
              end
          | _ => None
          end
      end
  end.
End Link.
