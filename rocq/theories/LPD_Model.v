(* Model of the reference counts of LuaParameterDictionary:
   cartographer/common/lua_parameter_dictionary.cc (lp below). *)
From Coq Require Import List ZArith Bool String.
Import ListNotations.
Open Scope Z_scope.

(* Lua values and tables as far as the dictionary looks at them. A number value carries the
   integer lua_tointeger gives. *)
Inductive key := KNum (n : Z) | KStr (s : string) | KBool (b : bool).
Inductive value :=
| VBool (b : bool)
| VNum (n : Z)
| VStr (s : string)
| VTable (entries : list (key * value)).
Definition table := list (key * value).

Section Dict.
(* lua_isnumber of a string: the string converts to a number *)
Variable numeral : string -> bool.
(* lua_tointeger of such a string *)
Variable numeral_value : string -> Z.

Definition key_eqb (a b : key) : bool :=
  match a, b with
  | KNum x, KNum y => x =? y
  | KStr x, KStr y => String.eqb x y
  | KBool x, KBool y => Bool.eqb x y
  | _, _ => false
  end.
(* lua_rawget *)
Fixpoint rawget (t : table) (k : key) : option value :=
  match t with
  | [] => None
  | (k', v) :: r => if key_eqb k' k then Some v else rawget r k
  end.

(* GetKeys, lp:209-221. None: lua_tostring of a boolean key is a null pointer, from which a
   std::string is built. *)
Fixpoint get_keys (t : table) : option (list string) :=
  match t with
  | [] => Some []
  | (k, _) :: r =>
      match k with
      | KNum _ => get_keys r
      | KStr s => match get_keys r with
                  | Some ks => Some (if numeral s then ks else s :: ks)
                  | None => None
                  end
      | KBool _ => None
      end
  end.

(* a dictionary: the table at the top of its stack, reference_count_ == YES, and
   reference_counts_, with 0 for keys that are not in the map *)
Record dict := mk_dict { tab : table; counted : bool; refs : string -> Z }.
Definition new_dict (t : table) (c : bool) : dict := mk_dict t c (fun _ => 0).

(* HasKey, lp:223-225 *)
Definition has_key (d : dict) (k : string) : bool :=
  match rawget (tab d) (KStr k) with Some _ => true | None => false end.

(* CheckHasKeyAndReference, lp:398-406; None: the CHECK fails *)
Definition reference (d : dict) (k : string) : option dict :=
  if has_key d k
  then Some (mk_dict (tab d) (counted d)
                     (fun s => if String.eqb k s then refs d s + 1 else refs d s))
  else None.

(* the typed getters: lp:227-292 and lp:418-422 *)
Inductive kind := GetString | GetDouble | GetInt | GetNonNegativeInt | GetBool.
(* the CHECKs of PopString, PopDouble, PopInt, PopBool and GetNonNegativeInt *)
Definition pop_ok (k : kind) (v : value) : bool :=
  match k, v with
  | GetString, (VStr _ | VNum _) => true
  | (GetDouble | GetInt), VNum _ => true
  | (GetDouble | GetInt), VStr s => numeral s
  | GetNonNegativeInt, VNum n => 0 <=? n
  | GetNonNegativeInt, VStr s => numeral s && (0 <=? numeral_value s)
  | GetBool, VBool _ => true
  | _, _ => false
  end.

(* What a program does with a dictionary: typed reads, GetDictionary followed by a program on
   the result and its destruction, and calls that do not count: HasKey, GetKeys, ToString.
   Simplification: the result of GetDictionary is destroyed before the next read (the counts of
   different dictionaries do not interact). *)
Inductive read :=
| Read (k : kind) (name : string)
| ReadDict (name : string) (prog : list read)
| Look.

(* CheckAllKeysWereUsedExactlyOnceAndReset, lp:408-416, from the destructor, lp:198-207;
   false: abort *)
Definition destroy (d : dict) : bool :=
  if counted d
  then match get_keys (tab d) with
       | Some ks => forallb (fun k => refs d k =? 1) ks
       | None => false
       end
  else true.

(* run and destroy a dictionary. Some: the paths that were read, in order; None: abort *)
Fixpoint run_read (r : read) (d : dict) : option (dict * list (list string)) :=
  match r with
  | Look => Some (d, [])
  | Read k name =>
      match reference d name, rawget (tab d) (KStr name) with
      | Some d', Some v => if pop_ok k v then Some (d', [[name]]) else None
      | _, _ => None
      end
  | ReadDict name prog =>
      match reference d name, rawget (tab d) (KStr name) with
      | Some d', Some (VTable t) =>
          match (fix go (p : list read) (s : dict) : option (dict * list (list string)) :=
                   match p with
                   | [] => Some (s, [])
                   | x :: p' => match run_read x s with
                                | None => None
                                | Some (s1, l1) => match go p' s1 with
                                                   | None => None
                                                   | Some (s2, l2) => Some (s2, l1 ++ l2)
                                                   end
                                end
                   end) prog (new_dict t (counted d)) with
          | Some (s, l) => if destroy s then Some (d', [name] :: map (cons name) l) else None
          | None => None
          end
      | _, _ => None
      end
  end.
Fixpoint run_prog (p : list read) (d : dict) : option (dict * list (list string)) :=
  match p with
  | [] => Some (d, [])
  | x :: p' => match run_read x d with
               | None => None
               | Some (s1, l1) => match run_prog p' s1 with
                                  | None => None
                                  | Some (s2, l2) => Some (s2, l1 ++ l2)
                                  end
               end
  end.
Definition run_dict (t : table) (c : bool) (p : list read) : option (list (list string)) :=
  match run_prog p (new_dict t c) with
  | Some (d, l) => if destroy d then Some l else None
  | None => None
  end.
End Dict.
