(** * MemBackModel: the in-memory Python backend, cyclus/memback.pyx. *)
From Coq Require Import String List ZArith QArith Ascii Bool DecimalString.
From Verif Require Import Base QueryModel.
Import ListNotations.
Local Open Scope string_scope.

(** A pandas DataFrame: column labels and rows. *)
Record frame := mkFrame { fr_fields : list string; fr_rows : list (list anyval) }.

(** A Datum as delivered: title, field names and values (src/datum.h). *)
Record mdatum := mkMDatum { md_title : string; md_fields : list string; md_vals : list anyval }.

(** Compiled code for a list of conditions: an expression naming fields, operators and val0, val1, ...; the value
    names are those of the positions. *)
Definition code := list (string * string).

(** The backend: memback.pyx 35-45 and 127-136.  [mb_cache] is the dict shared by the C++ and the Python object, None
    once closed. *)
Record memback := mkMB {
  mb_store_all : bool;
  mb_registry : list string;
  mb_cache : option (list (string * frame));
  mb_codes : list (string * code);
  mb_lru : list string
}.
Definition smem (s : string) (l : list string) : bool := existsb (String.eqb s) l.
Fixpoint sfind {A} (s : string) (l : list (string * A)) : option A :=
  match l with [] => None | (k, v) :: l => if s =? k then Some v else sfind s l end.
(** A dict keeps the position of a key it already has. *)
Fixpoint sset {A} (s : string) (v : A) (l : list (string * A)) : list (string * A) :=
  match l with
  | [] => [(s, v)]
  | (k, w) :: l => if s =? k then (k, v) :: l else (k, w) :: sset s v l
  end.
Definition sdel {A} (s : string) (l : list (string * A)) : list (string * A) := filter (fun p => negb (s =? fst p)) l.

(** ** Notify, 47-105 *)

(** 66-80: groups by title, in order of arrival.  (The std::map visits titles in sorted order, here in order of first
    appearance; only the order of the dict's keys depends on it.) *)
Fixpoint group (keep : string -> bool) (data : list mdatum) (groups : list (string * list mdatum)) :
    list (string * list mdatum) :=
  match data with
  | [] => groups
  | d :: data =>
      if keep (md_title d)
      then group keep data (sset (md_title d) ((match sfind (md_title d) groups with Some g => g | None => [] end) ++ [d])%list groups)
      else group keep data groups
  end.

(** 83-98: the columns are those of the first datum; the values of every datum are filed by position.  Repeated field
    names and data of another length are outside the model (the columns would have different lengths). *)
Fixpoint nodupb (l : list string) : bool := match l with [] => true | x :: l => negb (smem x l) && nodupb l end.
Definition group_frame (g : list mdatum) : result frame :=
  match g with
  | [] => UB
  | d :: _ =>
      if nodupb (md_fields d) && forallb (fun e => (List.length (md_vals e) =? List.length (md_fields d))%nat) g
      then Ok (mkFrame (md_fields d) (map md_vals g))
      else UB
  end.
(** 101-104: pd.concat with ignore_index appends the rows, matching columns by name; columns that are not the same
    set are outside the model (pandas fills the gaps). *)
Fixpoint listeqb (a b : list string) : bool :=
  match a, b with [], [] => true | x :: a, y :: b => (x =? y) && listeqb a b | _, _ => false end.
Definition reorder (from to : list string) (row : list anyval) : option (list anyval) :=
  fold_right (fun f acc => match acc, field_index from f with
                           | Some acc, Some i => match nth_error row i with Some v => Some (v :: acc) | None => None end
                           | _, _ => None end) (Some []) to.
Fixpoint all_some {A} (l : list (option A)) : option (list A) :=
  match l with
  | [] => Some []
  | Some a :: l => match all_some l with Some r => Some (a :: r) | None => None end
  | None :: _ => None
  end.
Definition pd_concat (old new : frame) : result frame :=
  if listeqb (fr_fields old) (fr_fields new) then Ok (mkFrame (fr_fields old) (fr_rows old ++ fr_rows new))
  else if (List.length (fr_fields old) =? List.length (fr_fields new))%nat
  then match all_some (map (reorder (fr_fields new) (fr_fields old)) (fr_rows new)) with
       | Some rows => Ok (mkFrame (fr_fields old) (fr_rows old ++ rows))
       | None => UB
       end
  else UB.
(** 82-105: one entry of the cache per group. *)
Fixpoint store_groups (groups : list (string * list mdatum)) (cache : list (string * frame)) :
    result (list (string * frame)) :=
  match groups with
  | [] => Ok cache
  | (name, g) :: groups =>
      match group_frame g with
      | Ok results =>
          match (match sfind name cache with Some old => pd_concat old results | None => Ok results end) with
          | Ok results => store_groups groups (sset name results cache)
          | Throw e => Throw e | UB => UB
          end
      | Throw e => Throw e | UB => UB
      end
  end.
Definition with_cache (m : memback) (c : list (string * frame)) : memback :=
  mkMB (mb_store_all m) (mb_registry m) (Some c) (mb_codes m) (mb_lru m).
(** 47-105, Notify.  The early exits (nothing registered, no data, no group) leave the cache alone. *)
Definition mb_notify (m : memback) (data : list mdatum) : result memback :=
  match mb_cache m with
  | None => UB (* use of a cache that was given up by Close *)
  | Some cache =>
      if negb (mb_store_all m) && (match mb_registry m with [] => true | _ => false end) then Ok m
      else match data with
           | [] => Ok m
           | _ =>
               let keep := fun t => if mb_store_all m then true else smem t (mb_registry m) in
               match store_groups (group keep data []) cache with
               | Ok c => Ok (with_cache m c)
               | Throw e => Throw e | UB => UB
               end
           end
  end.

(** ** The registry, 222-260 *)
Inductive reg_val := RAll | RNone | RSet (names : list string).
Definition mb_set_registry (m : memback) (v : reg_val) : result memback :=
  match mb_cache m with
  | None => Throw PlainError
  | Some cache =>
      match v with
      | RAll => Ok (mkMB true [] (Some cache) (mb_codes m) (mb_lru m))
      | RNone => Ok (mkMB false [] (Some []) (mb_codes m) (mb_lru m))
      | RSet val =>
          let old := mb_registry m in
          let dirty := filter (fun k => smem k old && negb (smem k val)) (map fst cache) in
          Ok (mkMB false val (Some (fold_left (fun c k => sdel k c) dirty cache)) (mb_codes m) (mb_lru m))
      end
  end.
(** 127-136, construction: Init stores everything, then the registry is set. *)
Definition mb_new (registry : reg_val) : result memback := mb_set_registry (mkMB true [] (Some []) [] []) registry.

(** ** Queries *)
Record mcond := mkMCond { mc_field : string; mc_op : string; mc_val : anyval }.

(** How Python and pandas compare a column entry with a value is left open; a comparison that raises is not
    modelled. *)
Definition py_holds := string -> anyval -> anyval -> bool.

(** The evaluation context of 268-276. *)
Inductive ctxval := CNothing | CColumn (l : list anyval) | CValue (v : anyval).
Definition val_name (i : nat) : string := "val" ++ NilEmpty.string_of_uint (Nat.to_uint i).
Definition df_column (df : frame) (f : string) : option (list anyval) :=
  match field_index (fr_fields df) f with
  | None => None
  | Some i => all_some (map (fun r => nth_error r i) (fr_rows df))
  end.
Fixpoint build_ctx (df : frame) (conds : list mcond) (i : nat) (key : string) (ctx : list (string * ctxval)) :
    result (string * list (string * ctxval)) :=
  match conds with
  | [] => Ok (key, ctx)
  | c :: cs =>
      let key := key ++ (mc_field c ++ mc_op c) in
      match (match sfind (mc_field c) ctx with
             | Some _ => Ok ctx
             | None => match df_column df (mc_field c) with
                       | Some col => Ok (sset (mc_field c) (CColumn col) ctx)
                       | None => Throw KeyError end end) with
      | Ok ctx => build_ctx df cs (S i) key (sset (val_name i) (CValue (mc_val c)) ctx)
      | Throw e => Throw e | UB => UB
      end
  end.
Definition known_op (op : string) : bool := smem op ["=="; "!="; "<"; "<="; ">"; ">="].
(** 292-318, _compile_conds, _parse_conds, _parse_cond.  With no conditions the variable holding the tree is never
    bound; an operator outside the table is a KeyError. *)
Definition compile_conds (conds : list mcond) : result code :=
  match conds with
  | [] => Throw PlainError
  | _ => if forallb (fun c => known_op (mc_op c)) conds then Ok (map (fun c => (mc_field c, mc_op c)) conds) else Throw KeyError
  end.
(** Evaluation of the expression: a comparison with a column gives a mask, one with a plain value a truth value; they
    are combined with &, a truth value applying to every row.  (The expression associates to the left, here to the
    right, which is the same for &.)  Comparisons involving the entry __builtins__, and with a column on the right,
    are outside the model. *)
Inductive mask := MRows (l : list bool) | MOne (b : bool).
Definition mask_and (a b : mask) : mask :=
  match a, b with
  | MRows l, MRows k => MRows (map (fun p => fst p && snd p) (combine l k))
  | MRows l, MOne c => MRows (map (fun x => x && c) l)
  | MOne c, MRows k => MRows (map (fun x => c && x) k)
  | MOne c, MOne d => MOne (c && d)
  end.
Definition eval_one (cmp : py_holds) (p : string * string) (i : nat) (ctx : list (string * ctxval)) : result mask :=
  match sfind (fst p) ctx, sfind (val_name i) ctx with
  | Some (CColumn col), Some (CValue v) => Ok (MRows (map (fun x => cmp (snd p) x v) col))
  | Some (CValue w), Some (CValue v) => Ok (MOne (cmp (snd p) w v))
  | None, _ | _, None => Throw PlainError
  | _, _ => UB
  end.
Fixpoint eval_code (cmp : py_holds) (c : code) (i : nat) (ctx : list (string * ctxval)) : result mask :=
  match c with
  | [] => Throw PlainError
  | [p] => eval_one cmp p i ctx
  | p :: c =>
      match eval_one cmp p i ctx with
      | Ok a => match eval_code cmp c (S i) ctx with
                | Ok b => Ok (mask_and a b)
                | Throw e => Throw e | UB => UB end
      | Throw e => Throw e | UB => UB
      end
  end.
(** df[mask]; with a single truth value as index pandas looks for a column of that name. *)
Definition masked (df : frame) (m : mask) : result frame :=
  match m with
  | MRows l => Ok (mkFrame (fr_fields df) (map fst (filter snd (combine (fr_rows df) l))))
  | MOne _ => Throw KeyError
  end.

(** 265-290, _apply_conds, with the cache of compiled code and its queue of 256 keys. *)
Definition max_codes : nat := 256.
Definition apply_conds (cmp : py_holds) (m : memback) (df : frame) (conds : list mcond) : result frame * memback :=
  match build_ctx df conds 0 "" [("__builtins__", CNothing)] with
  | Throw e => (Throw e, m)
  | UB => (UB, m)
  | Ok (key, ctx) =>
      let got :=
        match sfind key (mb_codes m) with
        | Some code => (Ok code, m)
        | None =>
            match compile_conds conds with
            | Ok code =>
                let codes := sset key code (mb_codes m) in
                match (if (List.length (mb_lru m) =? max_codes)%nat
                       then match mb_lru m with k :: r => (sdel k codes, r) | [] => (codes, []) end
                       else (codes, mb_lru m)) with
                | (codes, lru) => (Ok code, mkMB (mb_store_all m) (mb_registry m) (mb_cache m) codes (lru ++ [key])%list)
                end
            | Throw e => (Throw e, m)
            | UB => (UB, m)
            end
        end in
      match got with
      | (Ok code, m') =>
          match eval_code cmp code 0 ctx with
          | Ok mask => (masked df mask, m')
          | Throw e => (Throw e, m') | UB => (UB, m')
          end
      | (Throw e, m') => (Throw e, m')
      | (UB, m') => (UB, m')
      end
  end.

(** 145-187, query, with the fallback backend as an oracle: what its own query returns; an error is taken to be the
    RuntimeError that C++ exceptions become. *)
Definition fallback := string -> option (list mcond) -> result frame.
Definition mb_query (cmp : py_holds) (fb : option fallback) (m : memback) (table : string) (conds : option (list mcond)) :
    result (option frame) * memback :=
  let some (r : result frame * memback) : result (option frame) * memback :=
    match r with (Ok f, m) => (Ok (Some f), m) | (Throw e, m) => (Throw e, m) | (UB, m) => (UB, m) end in
  match mb_cache m with
  | None => (Throw PlainError, m)
  | Some cache =>
      match sfind table cache with
      | Some df => match conds with None => (Ok (Some df), m) | Some cs => some (apply_conds cmp m df cs) end
      | None =>
          match fb with
          | None => (Ok None, m)
          | Some fb =>
              if (if mb_store_all m then true else smem table (mb_registry m)) then
                match fb table None with
                | Ok t =>
                    let m := with_cache m (sset table t cache) in
                    match conds with None => (Ok (Some t), m) | Some cs => some (apply_conds cmp m t cs) end
                | Throw _ => (Ok None, m)
                | UB => (UB, m)
                end
              else match fb table conds with
                   | Ok t => (Ok (Some t), m)
                   | Throw _ => (Ok None, m)
                   | UB => (UB, m)
                   end
          end
      end
  end.

(** 189-192, tables; 198-203, close. *)
Definition mb_tables (m : memback) : list string := match mb_cache m with Some c => map fst c | None => [] end.
Definition mb_close (m : memback) : memback := mkMB (mb_store_all m) (mb_registry m) None (mb_codes m) (mb_lru m).
