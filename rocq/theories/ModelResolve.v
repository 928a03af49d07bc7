(** Which mapping a Go type gets: cmd/sqlgen/codegen/tool.go 15-76 (columnDataType), generate.go 680-744 (isBasicType, valuer, scanner). *)
From Coq Require Import List Bool Ascii PeanoNat NArith.
From Verif Require Import Base ModelStrconv.
Import ListNotations.

(** Go types as a graph, so that a type can refer to itself; identity of types is identity of nodes *)
Inductive node :=
| NBasic (name : bytes)
| NStruct (name : bytes)            (* a named type whose underlying type is a struct *)
| NNamed (name : bytes) (under : nat) (* any other named type *)
| NPtr (e : nat)
| NSlice (e : nat)
| NArr (n : N) (e : nat)
| NAlias (r : nat)
| NOther.                           (* maps, channels, functions, interfaces, unnamed structs *)
Definition graph := nat -> node.
(** Where the loop stops: with a key that is in the table, or with the text collected so far *)
Inductive stop := Found (key : bytes) | Done (text : bytes).
(** The loop of columnDataType, tool.go 21-58; fuel counts its rounds, None: still running *)
Fixpoint walk (fuel : nat) (g : graph) (keys : list bytes) (prev t : nat) (s : bytes) : option stop :=
  match fuel with
  | O => None
  | S f =>
      match g prev with
      | NBasic n => Some (Done (s ++ n))
      | NStruct n => Some (Done (s ++ n))
      | NNamed _ u => if bmem s keys then Some (Found s) else if Nat.eqb u t then Some (Done s) else walk f g keys u u s
      | NPtr e => walk f g keys e t (s ++ B "*")
      | NSlice e => walk f g keys e t (s ++ B "[]")
      | NArr n e => walk f g keys e t (s ++ B "[" ++ format_uint n ++ B "]")
      | NAlias r => walk f g keys r t s
      | NOther => Some (Done s)
      end
  end.
(** arrayRegexp, tool.go 12: ^\[(\d+)\](rune|string|byte)$; gives the element *)
Fixpoint after_digits (s : bytes) : bytes := match s with c :: r => if is_digit c then after_digits r else s | [] => [] end.
Definition fixed_array (s : bytes) : option bytes :=
  match s with
  | c :: d :: r =>
      if beq c "[" && is_digit d then
        match after_digits r with
        | e :: w => if beq e "]" && bmem w [B "rune"; B "string"; B "byte"] then Some w else None
        | [] => None
        end
      else None
  | _ => None
  end.
(** tool.go 59-75 *)
Definition finish (keys : list bytes) (s : bytes) : option bytes :=
  if bmem s keys then Some s else
  match (match s with c :: r => if beq c "*" && bmem r keys then Some r else None | [] => None end) with
  | Some r => Some r
  | None => match fixed_array s with
            | Some e => let k := B "[...]" ++ e in if bmem k keys then Some k else None
            | None => None
            end
  end.
(** columnDataType; the outer option: still running, the inner one: (nil, false) *)
Definition resolve (fuel : nat) (g : graph) (keys : list bytes) (t : nat) : option (option bytes) :=
  match walk fuel g keys t t [] with None => None | Some (Found k) => Some (Some k) | Some (Done s) => Some (finish keys s) end.
(** The keys of ColumnDataTypes(). mysql/column_type.go 17-212, postgres/column_type.go 17-232, sqlite/column_type.go 15-203 *)
Definition mysql_keys : list bytes := [B "rune"; B "byte"; B "string"; B "bool"; B "int"; B "int8"; B "int16"; B "int32"; B "int64"; B "uint"; B "uint8"; B "uint16"; B "uint32"; B "uint64"; B "float32"; B "float64"; B "time.Time"; B "sql.RawBytes"; B "encoding/json.RawMessage"; B "[...]rune"; B "[...]byte"; B "[]string"; B "[]byte"; B "[]bool"; B "[]int"; B "[]int8"; B "[]int16"; B "[]int32"; B "[]int64"; B "[]uint"; B "[]uint8"; B "[]uint16"; B "[]uint32"; B "[]uint64"; B "[]float32"; B "[]float64"; B "*"].
Definition sqlite_keys : list bytes := mysql_keys.
Definition pg_keys : list bytes := [B "rune"; B "byte"; B "string"; B "bool"; B "int"; B "int8"; B "int16"; B "int32"; B "int64"; B "uint"; B "uint8"; B "uint16"; B "uint32"; B "uint64"; B "float32"; B "float64"; B "time.Time"; B "sql.RawBytes"; B "encoding/json.RawMessage"; B "[...]rune"; B "[...]byte"; B "[...]string"; B "[...]bool"; B "[]string"; B "[]rune"; B "[]byte"; B "[]bool"; B "[][]byte"; B "[]int"; B "[]int8"; B "[]int16"; B "[]int32"; B "[]int64"; B "[]uint"; B "[]uint8"; B "[]uint16"; B "[]uint32"; B "[]uint64"; B "[]float32"; B "[]float64"; B "*"].
(** What the program knows of a type besides its shape: t.String(), whether T has a Value method, *T has Scan, MarshalText, UnmarshalText *)
Record facts := Facts { name_of : nat -> bytes; has_value : nat -> bool; has_scan : nat -> bool; has_mtext : nat -> bool; has_utext : nat -> bool }.
(** The code that is emitted for a column *)
Inductive enc := Plain (kind : bytes) (* the field as it is *) | Custom (name : bytes) (* the configured mapping *) | Own (* the type's own method *) | Map (key : bytes) (* the dialect's mapping *) | AsText.
(** isBasicType, generate.go 680-694; Type.String() of time.Time *)
Definition plain (g : graph) (t : nat) : option bytes :=
  match g t with
  | NBasic n => if bmem n [B "string"; B "bool"; B "int64"; B "float64"] then Some n else None
  | NStruct n => if bseq n (B "time.Time") then Some n else None
  | _ => None
  end.
Definition elem (g : graph) (t : nat) : nat := match g t with NPtr e => e | _ => t end.
(** valuer, generate.go 696-715, as the getter calls it (262-268): on the element of a pointer column.
    Simplified: an element that is a pointer again is taken as its own utype. *)
Definition write_enc (fuel : nat) (g : graph) (keys custom : list bytes) (x : facts) (t0 : nat) : option enc :=
  let t := elem g t0 in
  match plain g t with
  | Some n => Some (Plain n)
  | None =>
      if bmem (name_of x t) custom then Some (Custom (name_of x t))
      else if has_value x t then Some Own
      else match resolve fuel g keys t with
           | None => None
           | Some (Some k) => Some (Map k)
           | Some None => Some (if has_mtext x t then AsText else Map (B "*"))
           end
  end.
(** scanner, generate.go 717-744, called on the column's type *)
Definition read_enc (fuel : nat) (g : graph) (keys custom : list bytes) (x : facts) (t : nat) : option enc :=
  match plain g t with
  | Some n => Some (Plain n)
  | None =>
      if bmem (name_of x t) custom then Some (Custom (name_of x t))
      else if has_scan x (elem g t) then Some Own
      else match resolve fuel g keys t with
           | None => None
           | Some (Some k) => Some (Map k)
           | Some None => Some (if has_utext x (elem g t) then AsText else Map (B "*"))
           end
  end.
