(** How Go source text reads: tokens, brackets, declarations of methods and statements (The Go Programming Language Specification,
    Lexical elements, Semicolons, Method declarations).  A reader of part of the language: text with rune literals, floating-point
    numbers or general comments has no reading here.  Bytes from 128 on count as letters. *)
From Verif Require Import Base.

(** ** Tokens *)
Inductive gtok := GWord (s : bytes) | GNum (s : bytes) | GStr (source : bytes) | GSym (s : bytes).
Inductive mode := Between | InWord (r : bytes) | InNum (r : bytes) | InStr (r : bytes) | InEscape (r : bytes) | InRaw (r : bytes) | InSym (s : bytes) | Comment.
(** What is being read, and the tokens so far, the last one first *)
Definition state := (mode * list gtok)%type.

Definition word_start (c : byte) : bool := is_alpha c || beq c "_" || N.leb 128 (code c).
Definition word_char (c : byte) : bool := word_start c || is_digit c.
Definition in_bytes (c : byte) (s : bytes) : bool := existsb (beq c) s.
(** Characters that are tokens; first characters of operators; operators of more than one character *)
Definition single : bytes := B "()[]{},;".
Definition operator_start : bytes := B "+&=!-|<*^>/:%.~".
Definition operators : list bytes :=
  [B "+="; B "&="; B "&&"; B "=="; B "!="; B "-="; B "|="; B "||"; B "<="; B "*="; B "^="; B "<-"; B ">="; B "/="; B "<<"; B "<<="; B "++"; B ":="; B "%=";
   B ">>"; B ">>="; B "--"; B ".."; B "..."; B "&^"; B "&^="].
Definition keywords : list bytes :=
  [B "case"; B "chan"; B "const"; B "default"; B "defer"; B "else"; B "for"; B "func"; B "go"; B "goto"; B "if"; B "import"; B "interface"; B "map";
   B "package"; B "range"; B "select"; B "struct"; B "switch"; B "type"; B "var"].
(** A newline after one of these is a semicolon. *)
Definition ends_line (t : gtok) : bool :=
  match t with
  | GWord w => negb (bmem w keywords)
  | GNum _ | GStr _ => true
  | GSym s => bmem s [B "++"; B "--"; B ")"; B "]"; B "}"]
  end.
Definition newline (acc : list gtok) : list gtok :=
  match acc with t :: _ => if ends_line t then GSym (B ";") :: acc else acc | [] => [] end.

(** The first character of the next token *)
Definition start (acc : list gtok) (c : byte) : option state :=
  if beq c LF then Some (Between, newline acc)
  else if beq c " " || N.eqb (code c) 9 || N.eqb (code c) 13 then Some (Between, acc)
  else if word_start c then Some (InWord [c], acc)
  else if is_digit c then Some (InNum [c], acc)
  else if beq c dquote then Some (InStr [c], acc)
  else if beq c backtick then Some (InRaw [c], acc)
  else if in_bytes c single then Some (Between, GSym [c] :: acc)
  else if in_bytes c operator_start then Some (InSym [c], acc)
  else None.
Definition step (st : state) (c : byte) : option state :=
  let acc := snd st in
  match fst st with
  | Between => start acc c
  | InWord r => if word_char c then Some (InWord (c :: r), acc) else start (GWord (rev r) :: acc) c
  | InNum r => if is_digit c then Some (InNum (c :: r), acc) else if word_char c || beq c "." then None else start (GNum (rev r) :: acc) c
  | InStr r =>
      if beq c dquote then Some (Between, GStr (rev (c :: r)) :: acc)
      else if beq c LF then None
      else if beq c backslash then Some (InEscape (c :: r), acc) else Some (InStr (c :: r), acc)
  | InEscape r => if beq c LF then None else Some (InStr (c :: r), acc)
  | InRaw r => if beq c backtick then Some (Between, GStr (rev (c :: r)) :: acc) else Some (InRaw (c :: r), acc)
  | InSym s =>
      if bmem (s ++ [c]) operators then Some (InSym (s ++ [c]), acc)
      else if bseq s (B "/") && beq c "/" then Some (Comment, acc)
      else if (bseq s (B "/") && beq c "*") || (bseq s (B ".") && is_digit c) || bseq s (B "..") then None
      else start (GSym s :: acc) c
  | Comment => if beq c LF then Some (Between, newline acc) else Some (Comment, acc)
  end.
Fixpoint scan (st : state) (s : bytes) : option state :=
  match s with [] => Some st | c :: r => match step st c with Some st' => scan st' r | None => None end end.
(** The tokens when the text ends here; None inside a string or a comment *)
Definition finished (st : state) : option (list gtok) :=
  let acc := snd st in
  match fst st with
  | Between => Some acc
  | InWord r => Some (GWord (rev r) :: acc)
  | InNum r => Some (GNum (rev r) :: acc)
  | InSym s => if bseq s (B "..") then None else Some (GSym s :: acc)
  | _ => None
  end.
Definition tokens (s : bytes) : option (list gtok) :=
  match scan (Between, []) s with
  | Some st => match finished st with Some acc => Some (rev acc) | None => None end
  | None => None
  end.

(** ** Brackets *)
Inductive gtree := GLeaf (t : gtok) | GGroup (open : byte) (l : list gtree).
Definition opening (t : gtok) : option byte := match t with GSym [c] => if in_bytes c (B "([{") then Some c else None | _ => None end.
Definition closing (t : gtok) : option byte :=
  match t with
  | GSym [c] => if beq c ")" then Some "("%char else if beq c "]" then Some "["%char else if beq c "}" then Some "{"%char else None
  | _ => None
  end.
(** The brackets that are open, each with what is before it (last first), and what is in the innermost one so far *)
Fixpoint plant (stack : list (byte * list gtree)) (cur : list gtree) (ts : list gtok) : option (list gtree) :=
  match ts with
  | [] => match stack with [] => Some (rev cur) | _ => None end
  | t :: r =>
      match opening t with
      | Some c => plant ((c, cur) :: stack) [] r
      | None =>
          match closing t with
          | Some c => match stack with
                      | (o, before) :: stack' => if beq o c then plant stack' (GGroup o (rev cur) :: before) r else None
                      | [] => None
                      end
          | None => plant stack (GLeaf t :: cur) r
          end
      end
  end.
Definition trees (s : bytes) : option (list gtree) := match tokens s with Some ts => plant [] [] ts | None => None end.

(** ** Statements *)
Definition word (s : bytes) : gtree := GLeaf (GWord s).
Definition sym (s : bytes) : gtree := GLeaf (GSym s).
Definition is_sym (s : bytes) (t : gtree) : bool := match t with GLeaf (GSym x) => bseq x s | _ => false end.
Definition is_word (s : bytes) (t : gtree) : bool := match t with GLeaf (GWord x) => bseq x s | _ => false end.
(** Statements between semicolons; an if statement has a body of statements. *)
Inductive gstmt := Simple (l : list gtree) | If (condition : list gtree) (body : list gstmt).
Fixpoint body_of (t : gtree) : list gstmt :=
  match t with
  | GLeaf _ => []
  | GGroup _ l =>
      (fix go (cur : list gtree) (l : list gtree) : list gstmt :=
         match l with
         | [] => match cur with [] => [] | _ => [Simple (rev cur)] end
         | t :: r =>
             if is_sym (B ";") t then match cur with [] => go [] r | _ => Simple (rev cur) :: go [] r end
             else match t, rev cur with
                  | GGroup c _, w :: condition => if beq c "{" && is_word (B "if") w then If condition (body_of t) :: go [] r else go (t :: cur) r
                  | _, _ => go (t :: cur) r
                  end
         end) [] l
  end.

(** ** Declarations *)
Record gfunc := { g_receiver : list gtree; g_name : bytes; g_params : list gtree; g_results : list gtree; g_body : list gstmt }.
Inductive gdecl := Method (f : gfunc) | Decl (l : list gtree).
Definition read_decl (l : list gtree) : gdecl :=
  match l with
  | GLeaf (GWord f) :: GGroup r recv :: GLeaf (GWord n) :: GGroup p params :: rest =>
      if bseq f (B "func") && beq r "(" && beq p "(" then
        match rev rest with
        | GGroup c body :: results =>
            if beq c "{" then Method {| g_receiver := recv; g_name := n; g_params := params; g_results := rev results; g_body := body_of (GGroup c body) |}
            else Decl l
        | _ => Decl l
        end
      else Decl l
  | _ => Decl l
  end.
(** What is between semicolons *)
Fixpoint split_trees (s : bytes) (cur : list gtree) (l : list gtree) : list (list gtree) :=
  match l with
  | [] => [rev cur]
  | t :: r => if is_sym s t then rev cur :: split_trees s [] r else split_trees s (t :: cur) r
  end.
Definition nonempty {A} (l : list A) : bool := match l with [] => false | _ => true end.
Definition read_source (s : bytes) : option (list gdecl) :=
  match trees s with
  | Some l => Some (map read_decl (filter nonempty (split_trees (B ";") [] l)))
  | None => None
  end.

(** ** Expressions *)
(** The elements of a list, with or without a comma after the last *)
Definition elements (l : list gtree) : list (list gtree) :=
  match rev (split_trees (B ",") [] l) with [] :: r => rev r | es => rev es end.
Definition paren (l : list gtree) : gtree := GGroup "(" l.
Definition bracket (l : list gtree) : gtree := GGroup "[" l.
Definition brace (l : list gtree) : gtree := GGroup "{" l.
(** []T{x, y} *)
Definition slice_of (T : bytes) (l : list gtree) (es : list (list gtree)) : Prop :=
  exists inner, l = [bracket []; word T; brace inner] /\ elements inner = es.
(** return x, y *)
Definition returns (s : gstmt) (es : list (list gtree)) : Prop := exists l, s = Simple (word (B "return") :: l) /\ elements l = es.
(** v.A.B *)
Definition selector (v : bytes) (names : list bytes) : list gtree := word v :: flat_map (fun n => [sym (B "."); word n]) names.
(** v.f() *)
Definition call (v f : bytes) : list gtree := [word v; sym (B "."); word f; paren []].
(** The text is one expression, in one line. *)
Definition expression (e : bytes) (x : list gtree) : Prop :=
  trees e = Some x /\ ~ In LF e /\ (forall t, In t x -> is_sym (B ",") t = false /\ is_sym (B ";") t = false) /\ trees (e ++ [LF]) = Some (x ++ [sym (B ";")]).
