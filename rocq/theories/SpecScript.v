(** Reading a migration file: its sections, the tokens of a section, its statements. Independent of the model. *)
From Coq Require Import List Bool ZArith.
From Verif Require Import Base ModelMigration.
Import ListNotations.

(** ** Sections: the lines after the Up mark and the lines after the Down mark *)
Fixpoint lines (s : bytes) : list bytes :=
  match s with
  | [] => [[]]
  | c :: r => if beq c LF then [] :: lines r else match lines r with [] => [[c]] | l :: ls => (c :: l) :: ls end
  end.
Definition command (l : bytes) : bool := has_prefix l (B "-- +").
Definition sections (text : bytes) (up down : list bytes) : Prop :=
  lines text = B "-- +migrate Up" :: up ++ B "-- +migrate Down" :: down /\ Forall (fun l => command l = false) (up ++ down).
(** The SQL of a section *)
Definition sql_of (ls : list bytes) : bytes := flat_map (fun l => l ++ [LF]) ls.

(** ** Tokens *)
Inductive stok := Wd (w : bytes) (* word or number *) | Nm (n : bytes) (* quoted name *) | St (s : bytes) (* string literal *) | Sy (c : byte).
Inductive smode := MIdle | MWord (acc : bytes) | MQuote (q : byte) (acc : bytes) | MEsc (q : byte) (acc : bytes) | MEnd (q : byte) (acc : bytes) | MDash | MComment.
Definition space (c : byte) : bool := beq c " " || beq c LF || beq c (chr 9) || beq c (chr 13).
Definition word_char (c : byte) : bool := is_alnum c || beq c "_" || beq c "." || beq c "$" || N.leb 128 (code c).
Section Lex.
(** MySQL (names in backticks, backslash escapes in strings) or PostgreSQL (names in double quotes) *)
Variable my : bool.
Definition opens (c : byte) : bool := beq c squote || beq c dquote || (my && beq c backtick).
Definition quoted (q : byte) (s : bytes) : stok := if beq q squote then St s else if beq q backtick then Nm s else if my then St s else Nm s.
(** Backslash escapes of MySQL *)
Definition escaped (c : byte) : byte :=
  if beq c "n" then LF else if beq c "t" then chr 9 else if beq c "r" then chr 13 else if beq c "0" then chr 0 else if beq c "b" then chr 8 else if beq c "Z" then chr 26 else c.
Definition begin (c : byte) (out : list stok) : smode * list stok :=
  if space c then (MIdle, out) else if word_char c then (MWord [c], out) else if opens c then (MQuote c [], out) else if beq c "-" then (MDash, out) else (MIdle, Sy c :: out).
Definition sstep (s : smode * list stok) (c : byte) : smode * list stok :=
  let (m, out) := s in
  match m with
  | MIdle => begin c out
  | MWord acc => if word_char c then (MWord (c :: acc), out) else begin c (Wd (rev acc) :: out)
  | MQuote q acc => if beq c q then (MEnd q acc, out) else if my && beq c backslash && negb (beq q backtick) then (MEsc q acc, out) else (MQuote q (c :: acc), out)
  | MEsc q acc => (MQuote q (escaped c :: acc), out)
  | MEnd q acc => if beq c q then (MQuote q (c :: acc), out) else begin c (quoted q (rev acc) :: out)
  | MDash => if beq c "-" then (MComment, out) else begin c (Sy "-" :: out)
  | MComment => if beq c LF then (MIdle, out) else (MComment, out)
  end.
Definition sclose (s : smode * list stok) : option (list stok) :=
  let (m, out) := s in
  match m with
  | MIdle | MComment => Some (rev out)
  | MWord acc => Some (rev (Wd (rev acc) :: out))
  | MEnd q acc => Some (rev (quoted q (rev acc) :: out))
  | MDash => Some (rev (Sy "-" :: out))
  | MQuote _ _ | MEsc _ _ => None
  end.
Definition scan (text : bytes) : smode * list stok := fold_left sstep text (MIdle, []).
Definition stokens (text : bytes) : option (list stok) := sclose (scan text).
(** The tokens of a piece of a line (a type, a default); it may not open a comment *)
Definition piece (x : bytes) : option (list stok) := match scan x with (MComment, _) => None | s => sclose s end.
End Lex.

(** ** Statements *)
Definition upper1 (c : byte) : byte := if is_lower c then chr (code c - 32) else c.
Definition kw (w : bytes) (t : stok) : bool := match t with Wd x => bseq (map upper1 x) w | _ => false end.
Fixpoint skip (ws : list bytes) (ts : list stok) : option (list stok) :=
  match ws, ts with
  | [], _ => Some ts
  | w :: ws', t :: ts' => if kw w t then skip ws' ts' else None
  | _ :: _, [] => None
  end.
Definition sym (c : byte) (t : stok) : bool := match t with Sy x => beq x c | _ => false end.
(** Everything up to each semicolon; what follows the last one has to be empty *)
Fixpoint statements (cur : list stok) (ts : list stok) : option (list (list stok)) :=
  match ts with
  | [] => match cur with [] => Some [] | _ => None end
  | t :: r => if sym ";" t then option_map (cons cur) (statements [] r) else statements (cur ++ [t]) r
  end.
(** The items between the commas that are in no parentheses *)
Fixpoint items (d : nat) (cur : list stok) (ts : list stok) : list (list stok) :=
  match ts with
  | [] => [cur]
  | t :: r =>
      if sym "(" t then items (S d) (cur ++ [t]) r
      else if sym ")" t then items (pred d) (cur ++ [t]) r
      else if sym "," t then match d with O => cur :: items O [] r | S _ => items d (cur ++ [t]) r end
      else items d (cur ++ [t]) r
  end.
(** A column: name, tokens of the type, whether NULL is allowed, tokens of the default *)
Record scol := SCol { s_name : bytes; s_type : list stok; s_null : bool; s_default : option (list stok) }.
Definition clause (t : stok) : bool := kw (B "NOT") t || kw (B "NULL") t || kw (B "DEFAULT") t.
Fixpoint until_clause (ts : list stok) : list stok * list stok :=
  match ts with [] => ([], []) | t :: r => if clause t then ([], ts) else let (a, b) := until_clause r in (t :: a, b) end.
Definition read_default (ts : list stok) : option (option (list stok)) :=
  match ts with [] => Some None | _ => match skip [B "DEFAULT"] ts with Some (t :: r) => Some (Some (t :: r)) | _ => None end end.
Definition read_col (ts : list stok) : option scol :=
  match ts with
  | Nm n :: r =>
      let (ty, r1) := until_clause r in
      let '(null, r2) := match skip [B "NOT"; B "NULL"] r1 with Some r2 => (false, r2) | None => (true, r1) end in
      match ty, read_default r2 with
      | _ :: _, Some dv => Some (SCol n ty null dv)
      | _, _ => None (* a column needs a type *)
      end
  | _ => None
  end.
(** A list of names up to the closing parenthesis that ends the item *)
Fixpoint read_names (ts : list stok) : option (list bytes) :=
  match ts with
  | [Nm n; Sy c] => if beq c ")" then Some [n] else None
  | Nm n :: Sy c :: r => if beq c "," then option_map (cons n) (read_names r) else None
  | _ => None
  end.
(** CONSTRAINT name PRIMARY KEY ( names ) *)
Definition read_key (ts : list stok) : option (bytes * list bytes) :=
  match skip [B "CONSTRAINT"] ts with
  | Some (Nm k :: r) =>
      match skip [B "PRIMARY"; B "KEY"] r with
      | Some (p :: r') => if sym "(" p then option_map (pair k) (read_names r') else None
      | _ => None
      end
  | _ => None
  end.
Fixpoint read_body (l : list (list stok)) : option (list scol * option (bytes * list bytes)) :=
  match l with
  | [] => Some ([], None)
  | [x] => match read_key x with
           | Some k => Some ([], Some k)
           | None => match read_col x with Some c => Some ([c], None) | None => None end
           end
  | x :: r => match read_col x, read_body r with Some c, Some (cs, k) => Some (c :: cs, k) | _, _ => None end
  end.
Inductive sact :=
| SSetType (n : bytes) (ty : list stok) | SSetNotNull (n : bytes) | SSetDefault (n : bytes) (dv : list stok) | SAdd (c : scol) | SDrop (n : bytes).
Inductive sstmt := SCreate (t : bytes) (cols : list scol) (key : option (bytes * list bytes)) | SAlter (t : bytes) (acts : list sact).
Definition read_act (ts : list stok) : option sact :=
  match skip [B "ADD"; B "COLUMN"] ts with
  | Some r => option_map SAdd (read_col r)
  | None =>
      match skip [B "DROP"; B "COLUMN"] ts with
      | Some [Nm n] => Some (SDrop n)
      | Some _ => None
      | None =>
          match skip [B "ALTER"] ts with
          | Some (Nm n :: r) =>
              match skip [B "SET"; B "DATA"; B "TYPE"] r with
              | Some (t :: ty) => Some (SSetType n (t :: ty))
              | Some [] => None
              | None =>
                  match skip [B "SET"; B "NOT"; B "NULL"] r with
                  | Some [] => Some (SSetNotNull n)
                  | Some _ => None
                  | None => match skip [B "SET"; B "DEFAULT"] r with Some (t :: dv) => Some (SSetDefault n (t :: dv)) | _ => None end
                  end
              end
          | _ => None
          end
      end
  end.
Fixpoint read_acts (l : list (list stok)) : option (list sact) :=
  match l with [] => Some [] | x :: r => match read_act x, read_acts r with Some a, Some acts => Some (a :: acts) | _, _ => None end end.
Section Read.
Variable my : bool.
Definition read_stmt (ts : list stok) : option sstmt :=
  match skip [B "CREATE"; B "TABLE"; B "IF"; B "NOT"; B "EXISTS"] ts with
  | Some (Nm t :: p :: r) =>
      match rev r with
      | e :: body => if sym "(" p && sym ")" e then option_map (fun ck => SCreate t (fst ck) (snd ck)) (read_body (items 0 [] (rev body))) else None
      | [] => None
      end
  | Some _ => None
  | None =>
      match skip [B "ALTER"; B "TABLE"] ts with
      | Some (Nm t :: r) =>
          match r, my with
          | [], true => Some (SAlter t []) (* MySQL accepts ALTER TABLE without an action, PostgreSQL does not *)
          | _, _ => option_map (SAlter t) (read_acts (items 0 [] r))
          end
      | _ => None
      end
  end.
Fixpoint read_stmts (l : list (list stok)) : option (list sstmt) :=
  match l with [] => Some [] | x :: r => match read_stmt x, read_stmts r with Some a, Some b => Some (a :: b) | _, _ => None end end.
(** The statements of a section; None: it is rejected *)
Definition read_section (ls : list bytes) : option (list sstmt) :=
  match stokens my (sql_of ls) with
  | Some ts => match statements [] ts with Some l => read_stmts l | None => None end
  | None => None
  end.
End Read.

(** ** What types and defaults have to look like *)
(** Parentheses match, no comma outside of them, no semicolon *)
Fixpoint calm (d : nat) (ts : list stok) : bool :=
  match ts with
  | [] => Nat.eqb d 0
  | t :: r =>
      if sym ";" t then false
      else if sym "(" t then calm (S d) r
      else if sym ")" t then match d with O => false | S d' => calm d' r end
      else if sym "," t then match d with O => false | S _ => calm d r end
      else calm d r
  end.
Definition one_line (x : bytes) : Prop := ~ In LF x.
Definition type_text (my : bool) (x : bytes) (ts : list stok) : Prop :=
  one_line x /\ piece my x = Some ts /\ ts <> [] /\ calm 0 ts = true /\ Forall (fun t => clause t = false) ts.
Definition default_text (my : bool) (x : bytes) (ts : list stok) : Prop :=
  one_line x /\ piece my x = Some ts /\ ts <> [] /\ calm 0 ts = true.

(** ** Reading a script as the statements that were meant (ModelMigration.v gives only the types mcol, action and stmt) *)
Section Says.
Variable my : bool.
Definition col_says (m : mcol) (c : scol) : Prop :=
  s_name c = m_name m /\ type_text my (m_type m) (s_type c) /\ s_null c = m_null m /\
  match m_default m, s_default c with Some x, Some ts => default_text my x ts | None, None => True | _, _ => False end.
Definition act_says (a : action) (s : sact) : Prop :=
  match a, s with
  | SetType n ty, SSetType n' ts => n' = n /\ type_text my ty ts
  | SetNotNull n, SSetNotNull n' => n' = n
  | SetDefault n x, SSetDefault n' ts => n' = n /\ default_text my x ts
  | Add n (Some ty) null dv, SAdd c => col_says (MCol n ty null dv) c
  | Drop n, SDrop n' => n' = n
  | _, _ => False
  end.
Definition stmt_says (t : bytes) (a : stmt) (s : sstmt) : Prop :=
  match a, s with
  | Create cols pk, SCreate t' cs k => t' = t /\ Forall2 col_says cols cs /\ match pk with [] => k = None | _ => exists kn, k = Some (kn, pk) end
  | Alter acts, SAlter t' ss => t' = t /\ Forall2 act_says acts ss
  | _, _ => False
  end.
End Says.
