(** Model of /repo/cmd/sqlgen/codegen: the source patterns of Generate (codegen.go:60-150), path_matcher.go, and the part of Go's regexp
    that the patterns use.  Byte strings stand for paths; slash is the separator; there are no symbolic links,
    and dots are resolved lexically also behind a file (the system would report an error). *)
From Verif Require Import Base ModelCompiler.

(** ** Paths *)
(** strings.Split(s, sep) *)
Fixpoint split_on (sep : byte) (s : bytes) : list bytes :=
  match s with
  | [] => [[]]
  | c :: r => if beq c sep then [] :: split_on sep r else match split_on sep r with p :: ps => (c :: p) :: ps | [] => [[c]] end
  end.
(** path.Clean of an absolute path, as its segments; [stack] holds those before, the last first *)
Fixpoint clean_from (stack : list bytes) (parts : list bytes) : list bytes :=
  match parts with
  | [] => rev stack
  | p :: r =>
      if bseq p [] || bseq p (B ".") then clean_from stack r
      else if bseq p (B "..") then clean_from (tl stack) r
      else clean_from (p :: stack) r
  end.
Definition clean (s : bytes) : list bytes := clean_from [] (split_on "/" s).
Definition slashed (segs : list bytes) : bytes := concat (map (fun s => "/"%char :: s) segs).
Definition text_of (segs : list bytes) : bytes := match segs with [] => B "/" | _ => slashed segs end.

(** ** Files: the directories and the Go files of each, by segments *)
Record disk := { dirs : list (list bytes); files : list (list bytes * bytes) }.
Definition segs_eq (a b : list bytes) : bool := if list_eq_dec (list_eq_dec Ascii.ascii_dec) a b then true else false.
Definition is_dir (d : disk) (segs : list bytes) : bool := existsb (segs_eq segs) (dirs d).
Definition is_file (d : disk) (segs : list bytes) : bool := existsb (fun f => segs_eq segs (fst f ++ [snd f])) (files d).
Fixpoint starts_with (a p : list bytes) : bool :=
  match p, a with [], _ => true | x :: p', y :: a' => bseq x y && starts_with a' p' | _ :: _, [] => false end.
(** what filepath.WalkDir visits *)
Definition below (d : disk) (segs : list bytes) : list (list bytes) := filter (fun x => starts_with x segs) (dirs d).

(** ** Regular expressions *)
Inductive rx := Nul | Eps | One (set : byte -> bool) | Cat (a b : rx) | Alt (a b : rx) | Star (a : rx).
Fixpoint nullable (r : rx) : bool :=
  match r with Nul => false | Eps => true | One _ => false | Cat a b => nullable a && nullable b | Alt a b => nullable a || nullable b | Star _ => true end.
Fixpoint deriv (c : byte) (r : rx) : rx :=
  match r with
  | Nul => Nul
  | Eps => Nul
  | One f => if f c then Eps else Nul
  | Cat a b => if nullable a then Alt (Cat (deriv c a) b) (deriv c b) else Cat (deriv c a) b
  | Alt a b => Alt (deriv c a) (deriv c b)
  | Star a => Cat (deriv c a) (Star a)
  end.
Fixpoint accepts (r : rx) (s : bytes) : bool := match s with [] => nullable r | c :: s' => accepts (deriv c r) s' end.
(** Regexp.MatchString: somewhere in the text *)
Definition anything : rx := Star (One (fun _ => true)).
Definition match_string (r : rx) (s : bytes) : bool := accepts (Cat anything (Cat r anything)) s.

(** regexp.MustCompile of what path2Regex makes.  Panic: a syntax error.  Err: syntax that is not modelled (alternatives, anchors,
    counted repetition, negated classes, escaped letters and digits, flags). *)
Definition special (c : byte) : bool := existsb (beq c) [("|")%char; ("^")%char; ("$")%char; ("{")%char].
(** the members of a class, up to the bracket; [first]: nothing read yet *)
Fixpoint class_from (s : bytes) (first : bool) (acc : byte -> bool) : res ((byte -> bool) * bytes) :=
  match s with
  | [] => Panic
  | c :: r =>
      if beq c "]" && negb first then Ok (acc, r)
      else if beq c "^" && first then Err
      else if beq c "[" then Err
      else if beq c backslash then
        match r with
        | [] => Panic
        | e :: r' => if is_alnum e then Err else class_from r' false (fun x => acc x || beq x e)
        end
      else
        match r with
        | d :: e :: r' =>
            if beq d "-" && negb (beq e "]") then
              if beq e backslash || beq e "[" then Err
              else if N.ltb (code e) (code c) then Panic
              else class_from r' false (fun x => acc x || in_range (code c) (code e) x)
            else class_from r false (fun x => acc x || beq x c)
        | _ => class_from r false (fun x => acc x || beq x c)
        end
  end.
Definition is_repeat (c : byte) : bool := beq c "*" || beq c "+" || beq c "?".
Definition repeated (q : byte) (a : rx) : rx := if beq q "*" then Star a else if beq q "+" then Cat a (Star a) else Alt a Eps.
(** the operator after an atom: one, lazy or not (which changes nothing here), and no other *)
Definition quantified (a : rx) (s : bytes) : res (rx * bytes) :=
  match s with
  | q :: r =>
      if is_repeat q then
        let r1 := match r with l :: r' => if beq l "?" then r' else r | [] => r end in
        match r1 with
        | q' :: _ => if is_repeat q' then Panic else Ok (repeated q a, r1)
        | [] => Ok (repeated q a, r1)
        end
      else Ok (a, s)
  | [] => Ok (a, s)
  end.
(** atoms up to the end or a closing parenthesis, which is left *)
Fixpoint compile_seq (fuel : nat) (s : bytes) : res (rx * bytes) :=
  match fuel with
  | O => Err
  | S fuel' =>
      match s with
      | [] => Ok (Eps, [])
      | c :: r =>
          if beq c ")" then Ok (Eps, s)
          else
            let* ar :=
              if special c then Err
              else if is_repeat c then Panic
              else if beq c "." then Ok (One (fun x => negb (beq x LF)), r)
              else if beq c "[" then let* fr := class_from r true (fun _ => false) in Ok (One (fst fr), snd fr)
              else if beq c "(" then
                match r with
                | q :: _ =>
                    if beq q "?" then Err
                    else
                      let* gr := compile_seq fuel' r in
                      match snd gr with _ :: r' => Ok (fst gr, r') | [] => Panic end
                | [] => Panic
                end
              else if beq c backslash then
                match r with [] => Panic | e :: r' => if is_alnum e then Err else Ok (One (beq e), r') end
              else Ok (One (beq c), r) in
            let* qr := quantified (fst ar) (snd ar) in
            let* rest := compile_seq fuel' (snd qr) in
            Ok (Cat (fst qr) (fst rest), snd rest)
      end
  end.
Definition compile (s : bytes) : res rx :=
  let* x := compile_seq (S (length s)) s in
  match snd x with [] => Ok (fst x) | _ => Panic end.

(** ** codegen.go:31-36 path2Regex *)
Definition path2regex (s : bytes) : bytes :=
  concat (map (fun c => if beq c "." then B "\." else if beq c "*" then B ".*" else if beq c backslash then B "[\\/]" else if beq c "/" then B "[\\/]" else [c]) s).

(** ** path_matcher.go *)
Inductive matcher := Any | File (path : bytes) | Folder (path : bytes) | Regex (r : rx).
Definition matches (m : matcher) (v : bytes) : bool :=
  match m with Any => true | File p => bseq v p | Folder p => has_prefix v p | Regex r => match_string r v end.

(** ** codegen.go:72-90 *)
Definition last_is (s : bytes) (c : byte) : bool := match rev s with x :: _ => beq x c | [] => false end.
Definition resolve (pwd src : bytes) : res bytes :=
  match trim_space src with
  | [] => Err
  | c :: r =>
      let s := if bseq (c :: r) (B ".") then pwd
               else if beq c "." then pwd ++ r
               else if beq c "/" then c :: r
               else text_of (clean (pwd ++ B "/" ++ c :: r)) in
      Ok (if last_is s "*" then s ++ B ".go" else s)
  end.
(** strings.SplitN(s, "**", 2); None: does not occur *)
Fixpoint cut_stars (s : bytes) : option (bytes * bytes) :=
  match s with
  | [] => None
  | c :: r => if has_prefix s (B "**") then Some ([], tl r) else match cut_stars r with Some (a, b) => Some (c :: a, b) | None => None end
  end.
Definition trim_slash (s : bytes) : bytes := if last_is s "/" then removelast s else s.
(** 102: the expression for a star in the last segment.  [glob_segments]: its ([a-z][a-z0-9-_.]+\/)*, as far as it goes; what it covers and the rest *)
Definition word (c : byte) : bool := is_alnum c || beq c "_".
Definition seg_char (c : byte) : bool := is_alnum c || beq c "-" || beq c "_" || beq c ".".
Definition glob_segment (s : bytes) : bool := match s with c :: (_ :: _) as r => is_alpha c && forallb seg_char r | _ => false end.
Fixpoint glob_segments (parts : list bytes) : bytes * list bytes :=
  match parts with
  | p :: (_ :: _) as ps => if glob_segment p then let '(a, rest) := glob_segments ps in (p ++ "/"%char :: a, rest) else ([], parts)
  | _ => ([], parts)
  end.
Fixpoint skip_words (s : bytes) : bytes := match s with [] => [] | c :: r => if word c then skip_words r else s end.
Definition glob_tail (s : bytes) : bool :=
  match skip_words s with c :: r => beq c "*" && has_prefix (map (fun x => if is_upper x then chr (code x + 32) else x) (skip_words r)) (B ".go") | [] => false end.
(** FindStringSubmatch(srcDir)[1]: the first slash from which it matches *)
Fixpoint glob_root (s : bytes) : option bytes :=
  match s with
  | [] => None
  | c :: r =>
      if beq c "/" then
        let '(a, rest) := glob_segments (split_on "/" r) in
        match rest with
        | p :: _ => if glob_tail p then Some ("/"%char :: a) else glob_root r
        | [] => glob_root r
        end
      else glob_root r
  end.
(** ** 60-150 and parseGoPackage 180-210: the directories that are parsed and the matcher for their files; None: the source is passed over.
    SplitN's second part is never empty, because a pattern that ends in a star gets .go *)
Definition plan (d : disk) (srcdir : bytes) : res (option (list (list bytes) * matcher)) :=
  match cut_stars srcdir with
  | Some (before, after) =>
      let root := trim_slash (trim_space before) in
      let* r := compile (path2regex root ++ B "([\\/][a-z0-9_-]+)*" ++ path2regex after) in
      Ok (Some (match root with [] => [] | _ => below d (clean root) end, Regex r))
  | None =>
      match glob_root srcdir with
      | Some m =>
          let* r := compile (path2regex srcdir) in
          let root := trim_slash m in
          Ok (Some (match root with [] => [] | _ => [clean root] end, Regex r))
      | None =>
          let p := clean srcdir in
          if is_dir d p then Ok (Some ([p], Folder srcdir))
          else if is_file d p then Ok (Some ([removelast p], File (text_of p)))
          else Ok None
      end
  end.
(** The Go files that are looked at; [skip]: the directories of the generated database code (188-196) *)
Definition selected (d : disk) (skip : list (list bytes)) (srcdir : bytes) : res (list (list bytes * bytes)) :=
  let* p := plan d srcdir in
  match p with
  | None => Ok []
  | Some (ds, m) =>
      Ok (filter (fun f => existsb (segs_eq (fst f)) ds && negb (existsb (segs_eq (fst f)) skip) && matches m (text_of (fst f ++ [snd f]))) (files d))
  end.
Definition select (d : disk) (skip : list (list bytes)) (pwd src : bytes) : res (list (list bytes * bytes)) :=
  let* s := resolve pwd src in selected d skip s.
