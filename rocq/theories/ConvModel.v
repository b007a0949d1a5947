(** * ConvModel: conversion of input files between XML and JSON.

    Models src/toolkit/infile_converters.cc and the parts of src/infile_tree.cc it uses.

    An XML document is the tree libxml hands out: elements, text and comments; attributes and
    processing instructions are left out (the code looks at neither).  A JSON document is JsonCpp's
    [Json::Value]: the members of an object are in increasing order of their names, each name once
    (a [std::map]); numbers and booleans are the text they are
    printed as (a double with six significant digits, infile_converters.cc 70-71, so more digits in a
    JSON document are lost).  The text written by
    JsonToXml is a list of pieces of text, tags among them; [show] is what they look like in the
    file, and [read] is what an XML parser makes of them. *)
From Verif Require Import Base.
Open Scope string_scope.
Open Scope list_scope.

(** ** XML trees (infile_tree.cc 42-98) *)
Inductive xnode :=
| XE (name : string) (kids : list xnode)      (* an element *)
| XT (text : string)                          (* a text node *)
| XC (text : string).                         (* a comment *)

(** infile_tree.cc 42-54 and 100-117: the children that are elements. *)
Definition is_elem (x : xnode) : bool := match x with XE _ _ => true | _ => false end.
Definition elems (l : list xnode) : list xnode := filter is_elem l.

(** InfileTree::GetString("."), infile_tree.cc 62-98: [None] for its ValueError (not exactly one
    child), CastError when the only child is not text. *)
Definition get_string (kids : list xnode) : result (option string) :=
  match kids with
  | [XT t] => Ok (Some t)
  | [_] => Throw CastError
  | _ => Ok None
  end.

(** ** JSON values *)
Inductive json :=
| JNull
| JStr (s : string)
| JPod (s : string)                           (* a number or a boolean, as printed *)
| JArr (l : list json)
| JObj (members : list (string * json)).

(** The member of that name; [node[key] = val]. *)
Fixpoint member (key : string) (ms : list (string * json)) : option json :=
  match ms with
  | [] => None
  | (k, v) :: r => if String.eqb key k then Some v else member key r
  end.

Fixpoint assign (key : string) (val : json) (ms : list (string * json)) : list (string * json) :=
  match ms with
  | [] => [(key, val)]
  | (k, v) :: r =>
      match String.compare key k with
      | Lt => (key, val) :: ms
      | Eq => (k, val) :: r
      | Gt => (k, v) :: assign key val r
      end
  end.

(** Value::isArray and isObject, src/pyne.cc 15713-15721 (the JsonCpp it includes): a null is both. *)
Definition is_array (v : json) : bool := match v with JArr _ | JNull => true | _ => false end.
Definition is_object (v : json) : bool := match v with JObj _ | JNull => true | _ => false end.

(** JsonInsertOrAppend, infile_converters.cc 103-119.  Appending to a null makes it an array of one
    (pyne.cc 15536-15538). *)
Definition insert_or_append (key : string) (val : json) (ms : list (string * json)) :=
  match member key ms with
  | Some (JArr l) => assign key (JArr (l ++ [val])) ms
  | Some JNull => assign key (JArr [val]) ms
  | Some old => assign key (JArr [old; val]) ms
  | None => assign key val ms
  end.

(** AddXmlToJson, infile_converters.cc 121-143: the value of one child, and the loop. *)
Fixpoint xml_value (x : xnode) : result json :=
  match x with
  | XE _ kids =>
      match elems kids with
      | [] => match get_string kids with
              | Ok (Some t) => Ok (JStr t)
              | Ok None => Ok JNull
              | Throw e => Throw e
              | UB => UB
              end
      | _ :: _ =>
          match (fix loop (ks : list xnode) (ms : list (string * json)) : result (list (string * json)) :=
                   match ks with
                   | [] => Ok ms
                   | k :: r =>
                       match k with
                       | XE n _ => match xml_value k with
                                   | Ok v => loop r (insert_or_append n v ms)
                                   | Throw e => Throw e
                                   | UB => UB
                                   end
                       | _ => loop r ms
                       end
                   end) kids [] with
          | Ok ms => Ok (JObj ms)
          | Throw e => Throw e
          | UB => UB
          end
      end
  | _ => Ok JNull
  end.

Fixpoint xml_members (ks : list xnode) (ms : list (string * json)) : result (list (string * json)) :=
  match ks with
  | [] => Ok ms
  | XE n kids :: r => match xml_value (XE n kids) with
                      | Ok v => xml_members r (insert_or_append n v ms)
                      | Throw e => Throw e
                      | UB => UB
                      end
  | _ :: r => xml_members r ms
  end.

(** XmlToJson, infile_converters.cc 146-162, after parsing and before writing: the root element
    becomes an object whatever it has in it. *)
Definition xml_to_json (root : string) (kids : list xnode) : result json :=
  match xml_members kids [] with
  | Ok ms => Ok (JObj [(root, JObj ms)])
  | Throw e => Throw e
  | UB => UB
  end.

(** ** What is written *)
Inductive tok :=
| TOpen (n : string)
| TClose (n : string)
| TEmpty (n : string)
| TText (s : string).

Definition show1 (t : tok) : string :=
  match t with
  | TOpen n => String.append "<" (String.append n ">")
  | TClose n => String.append "</" (String.append n ">")
  | TEmpty n => String.append "<" (String.append n "/>")
  | TText s => s
  end.
Definition show (l : list tok) : string := fold_right (fun t s => String.append (show1 t) s) "" l.

Definition nl : string := String (Ascii.ascii_of_nat 10) "".

(** indent.substr(0, indent.size() - 2) (infile_converters.cc 45): the whole of an indent shorter
    than two. *)
Definition shorter (indent : string) : string :=
  match String.length indent with
  | S (S n) => substring 0 n indent
  | _ => indent
  end.

(** Whether the contents of member [v] go on lines of their own (infile_converters.cc 30-32). *)
Definition indent_member (v : json) : bool :=
  match v with
  | JObj _ => true
  | JArr (x :: _) => is_object x || is_array x
  | _ => false
  end.

Definition on_line (b : bool) (s : string) : list tok := if b then [TText s] else [].

(** AddJsonToXml, infile_converters.cc 15-77.  Looking at [node[name][0]] of an empty array (32)
    appends a null to it; the empty array of another array is not looked at so. *)
Fixpoint add_json (node : json) (parent indent : string) : list tok :=
  match node with
  | JObj members =>
      (fix loop (ms : list (string * json)) : list tok :=
         match ms with
         | [] => []
         | (name, v) :: r =>
             match v with
             | JNull => [TText indent; TEmpty name; TText nl]
             | JArr [] =>
                 (* the array is now [null] *)
                 [TText indent; TOpen name; TText nl] ++
                 [TText (shorter (String.append indent "  ")); TEmpty name; TText nl] ++
                 [TText indent; TClose name; TText nl]
             | _ =>
                 [TText indent; TOpen name] ++ on_line (indent_member v) nl ++
                 add_json v name (String.append indent "  ") ++
                 on_line (indent_member v) indent ++ [TClose name; TText nl]
             end ++ loop r
         end) members
  | JArr l =>
      (fix loop (first : bool) (l : list json) : list tok :=
         match l with
         | [] => []
         | v :: r =>
             match v with
             | JNull => [TText (shorter indent); TEmpty parent; TText nl]
             | _ =>
                 let own := is_object v || is_array v in
                 (if first then [] else [TText (shorter indent); TOpen parent] ++ on_line own nl) ++
                 add_json v parent indent ++
                 (match r with
                  | [] => []
                  | _ :: _ => on_line own (shorter indent) ++ [TClose parent; TText nl]
                  end)
             end ++ loop false r
         end) true l
  | JStr s => [TText s]
  | JPod s => [TText s]
  | JNull => []
  end.

(** JsonToXml, infile_converters.cc 80-101, after parsing. *)
Definition json_to_xml (j : json) : list tok := add_json j "" "".

(** ** What an XML parser makes of it *)
Definition is_space (c : Ascii.ascii) : bool :=
  existsb (Ascii.eqb c) [Ascii.ascii_of_nat 32; Ascii.ascii_of_nat 9; Ascii.ascii_of_nat 10; Ascii.ascii_of_nat 13].
Fixpoint blank (s : string) : bool :=
  match s with EmptyString => true | String c r => is_space c && blank r end.

(** The end of a piece of text; white space alone is dropped. *)
Definition flush (txt : string) (cur : list xnode) : list xnode :=
  if blank txt then cur else XT txt :: cur.

(** [cur] is what has been read of the innermost open element, [st] the elements around it, all
    last first; [txt] the text since the last tag.  [None] when the tags do not match. *)
Fixpoint read (l : list tok) (st : list (string * list xnode)) (cur : list xnode) (txt : string)
    : option (list xnode) :=
  match l with
  | [] => match st with [] => Some (rev (flush txt cur)) | _ => None end
  | TOpen n :: r => read r ((n, flush txt cur) :: st) [] ""
  | TClose n :: r =>
      match st with
      | (m, up) :: st' => if String.eqb m n then read r st' (XE n (rev (flush txt cur)) :: up) "" else None
      | [] => None
      end
  | TEmpty n :: r => read r st (XE n [] :: flush txt cur) ""
  | TText s :: r => read r st cur (String.append txt s)
  end.

(** The tags and pieces of text of a file: between a less-than and a greater-than sign is a tag.
    [None] for an ampersand (entities are not modelled) and for tags that do not end. *)
Inductive lexing := InText (acc : string) | InTag (acc : string).
Definition lt_sign : Ascii.ascii := Ascii.ascii_of_nat 60.
Definition gt_sign : Ascii.ascii := Ascii.ascii_of_nat 62.
Definition amp : Ascii.ascii := Ascii.ascii_of_nat 38.
Definition slash : Ascii.ascii := Ascii.ascii_of_nat 47.

Fixpoint ends_slash (s : string) : option string :=
  match s with
  | EmptyString => None
  | String c EmptyString => if Ascii.eqb c slash then Some "" else None
  | String c r => match ends_slash r with Some t => Some (String c t) | None => None end
  end.

Definition tag_of (s : string) : tok :=
  match s with
  | String c r => if Ascii.eqb c slash then TClose r
                  else match ends_slash s with Some n => TEmpty n | None => TOpen s end
  | EmptyString => TOpen s
  end.

Definition text_tok (acc : string) : list tok :=
  match acc with EmptyString => [] | _ => [TText acc] end.

Fixpoint lex (s : string) (m : lexing) : option (list tok) :=
  match s with
  | EmptyString => match m with InText acc => Some (text_tok acc) | InTag _ => None end
  | String c r =>
      if Ascii.eqb c amp then None else
      match m with
      | InText acc =>
          if Ascii.eqb c lt_sign
          then match lex r (InTag "") with Some l => Some (text_tok acc ++ l) | None => None end
          else lex r (InText (String.append acc (String c "")))
      | InTag acc =>
          if Ascii.eqb c gt_sign
          then match lex r (InText "") with Some l => Some (tag_of acc :: l) | None => None end
          else if Ascii.eqb c lt_sign then None
          else lex r (InTag (String.append acc (String c "")))
      end
  end.

Definition parse_xml (s : string) : option (list xnode) :=
  match lex s (InText "") with Some l => read l [] [] "" | None => None end.
