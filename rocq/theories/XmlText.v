(** The text of model files: what the builders write and what the reader of XML
    makes of it.

    Modelled: [prettyPrint] and [write] of src/SourceModelBuilder.cxx (119-145,
    171-176), which are repeated word for word in src/FluxBuilder.cxx (63-88,
    108-113).  The reader is rapidxml (package xmlBase, not in /repo), called with
    parse_default at src/SourceModel.cxx 76-78 and src/SourceFactory.cxx 206-208; it
    is modelled on the part of XML those builders use: elements, attributes in single
    or double quotes, white space between elements, the five named entities, and a
    leading declaration.  Comments, character data, CDATA and numeric entities are
    left out ([None]); rapidxml does not compare the name in a closing tag, and
    neither does the model. *)
From Verif Require Import Base.
From Coq Require Import String Ascii.
Local Open Scope string_scope.
Local Open Scope list_scope.
Local Open Scope nat_scope.

Infix "+++" := String.append (right associativity, at level 60).

Inductive node := Node (tag : string) (attrs : list (string * string)) (kids : list node).
Definition n_tag (n : node) : string := let 'Node t _ _ := n in t.
Definition n_attrs (n : node) : list (string * string) := let 'Node _ a _ := n in a.
Definition n_kids (n : node) : list node := let 'Node _ _ k := n in k.

Definition quote : ascii := "034"%char.
Definition newline : string := String "010"%char EmptyString.

Fixpoint spaces (n : nat) : string :=
  match n with 0 => "" | S n => String " "%char (spaces n) end.
Fixpoint concat_s (l : list string) : string :=
  match l with [] => "" | s :: l => s +++ concat_s l end.

(** SourceModelBuilder.cxx 127-131: one attribute; the value is written as it is. *)
Definition print_attr (a : string * string) : string :=
  " " +++ fst a +++ "=" +++ String quote (snd a +++ String quote "").

(** SourceModelBuilder.cxx 119-145, [prettyPrint]. *)
Fixpoint prettyPrint (indent : nat) (n : node) : string :=
  let 'Node t a k := n in
  spaces (2 * indent) +++ "<" +++ t +++ concat_s (map print_attr a) +++
  match k with
  | [] => "/>" +++ newline
  | _ => ">" +++ newline +++ concat_s (map (prettyPrint (S indent)) k) +++
         spaces (2 * indent) +++ "</" +++ t +++ ">" +++ newline
  end.

(** SourceModelBuilder.cxx 171-176, [write]: the contents of the file. *)
Definition declaration : string :=
  "<?xml version=" +++ String quote ("1.0" +++ String quote (" standalone=" +++
     String quote ("no" +++ String quote ("?>" +++ newline)))).
Definition write (n : node) : string := declaration +++ prettyPrint 0 n.

(** ** The reader *)
Definition is_ws (c : ascii) : bool :=
  (c =? " ")%char || (c =? "010")%char || (c =? "009")%char || (c =? "013")%char.
(** Characters that end a name. *)
Definition ends_name (c : ascii) : bool :=
  is_ws c || (c =? "/")%char || (c =? ">")%char || (c =? "=")%char || (c =? "<")%char || (c =? "?")%char.

Fixpoint skip_ws (s : string) : string :=
  match s with String c s' => if is_ws c then skip_ws s' else s | EmptyString => s end.
Fixpoint take_name (s : string) : string * string :=
  match s with
  | String c s' => if ends_name c then ("", s) else let (n, r) := take_name s' in (String c n, r)
  | EmptyString => ("", "")
  end.
(** Everything up to the next [q], and what follows it. *)
Fixpoint take_until (q : ascii) (s : string) : option (string * string) :=
  match s with
  | String c s' => if (c =? q)%char then Some ("", s')
                   else match take_until q s' with Some (v, r) => Some (String c v, r) | None => None end
  | EmptyString => None
  end.
Fixpoint starts (p s : string) : option string :=
  match p, s with
  | EmptyString, _ => Some s
  | String a p', String b s' => if (a =? b)%char then starts p' s' else None
  | _, _ => None
  end.

(** The named entities are replaced; an ampersand that starts none of them stays. *)
Fixpoint expand (s : string) : string :=
  match s with
  | String "&" (String "a" (String "m" (String "p" (String ";" r)))) => String "&" (expand r)
  | String "&" (String "q" (String "u" (String "o" (String "t" (String ";" r))))) => String quote (expand r)
  | String "&" (String "a" (String "p" (String "o" (String "s" (String ";" r))))) => String "039" (expand r)
  | String "&" (String "l" (String "t" (String ";" r))) => String "<" (expand r)
  | String "&" (String "g" (String "t" (String ";" r))) => String ">" (expand r)
  | String c r => String c (expand r)
  | EmptyString => EmptyString
  end.

Fixpoint parse_attrs (fuel : nat) (s : string) : option (list (string * string) * string) :=
  match fuel with
  | 0 => None
  | S fuel =>
    match skip_ws s with
    | EmptyString => None
    | String c r =>
        if (c =? "/")%char || (c =? ">")%char then Some ([], String c r)
        else let (nm, r1) := take_name (String c r) in
             match nm, skip_ws r1 with
             | EmptyString, _ => None
             | _, String e r2 =>
                 if (e =? "=")%char then
                   match skip_ws r2 with
                   | String q r3 =>
                       if (q =? quote)%char || (q =? "039")%char then
                         match take_until q r3 with
                         | Some (v, r4) => match parse_attrs fuel r4 with
                                           | Some (l, r5) => Some ((nm, expand v) :: l, r5)
                                           | None => None end
                         | None => None end
                       else None
                   | EmptyString => None end
                 else None
             | _, EmptyString => None
             end
    end
  end.

(** Sibling elements, up to a closing tag or the end of the text. *)
Fixpoint parse_nodes (fuel : nat) (s : string) : option (list node * string) :=
  match fuel with
  | 0 => None
  | S fuel =>
    match skip_ws s with
    | EmptyString => Some ([], "")
    | String c r =>
        if negb (c =? "<")%char then None
        else match starts "/" r with
             | Some _ => Some ([], String c r)
             | None =>
               let (t, r1) := take_name r in
               match t, parse_attrs fuel r1 with
               | EmptyString, _ => None
               | _, None => None
               | _, Some (a, r2) =>
                   match starts "/>" r2 with
                   | Some r3 => match parse_nodes fuel r3 with
                                | Some (l, r4) => Some (Node t a [] :: l, r4)
                                | None => None end
                   | None =>
                     match starts ">" r2 with
                     | None => None
                     | Some r3 =>
                       match parse_nodes fuel r3 with
                       | None => None
                       | Some (k, r4) =>
                         match starts "</" r4 with
                         | None => None
                         | Some r5 =>
                           match take_until ">" r5 with
                           | None => None
                           | Some (_, r6) =>
                             match parse_nodes fuel r6 with
                             | Some (l, r7) => Some (Node t a k :: l, r7)
                             | None => None end
                           end
                         end
                       end
                     end
                   end
               end
             end
    end
  end.

(** A leading [<?xml ... ?>] is passed over. *)
Fixpoint after_decl (s : string) : option string :=
  match s with
  | String "?" (String ">" r) => Some r
  | String _ r => after_decl r
  | EmptyString => None
  end.
Definition parse (s : string) : option (list node) :=
  let body := match starts "<?" s with Some r => after_decl r | None => Some s end in
  match body with
  | None => None
  | Some b => match parse_nodes (S (String.length b)) b with
              | Some (l, "") => Some l
              | _ => None
              end
  end.
