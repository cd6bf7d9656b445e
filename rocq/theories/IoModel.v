(** FunctorWriter.cpp: parameter files and lists of numbers, on the level of characters.

    The stream operations follow the C++ standard (operator>> for strings and doubles, istream::getline).  The conversion of
    a double to text ([show], printf's %g with 6 digits) and of a collected token to a double ([strtod], [None]: not a
    number) are parameters, as is the set [numch] of characters the extraction of a double collects; collecting stops at the
    first other character (that some libraries stop earlier, as at a second decimal point, is not modelled).
    A loop that has not ended after [fuel] passes is reported as [IoFuel]. *)
From Coq Require Import List Bool Ascii Arith.
From Verif Require Import F64 ListAux.
Import ListNotations.

Definition text := list ascii.
(** isspace in the C locale. *)
Definition is_ws (c : ascii) : bool := let n := nat_of_ascii c in Nat.eqb n 32 || (Nat.leb 9 n && Nat.leb n 13).
Definition space : ascii := ascii_of_nat 32.
Definition newline : ascii := ascii_of_nat 10.
Definition text_eqb (a b : text) : bool := if list_eq_dec ascii_dec a b then true else false.

(** An input stream: what is left to read, eofbit and failbit. *)
Record istream : Type := mkI { i_rest : text; i_eof : bool; i_fail : bool }.
Definition good (s : istream) : bool := negb (i_eof s) && negb (i_fail s).
(** ifstream::open; [None]: there is no such file. *)
Definition open (f : option text) : istream := match f with Some t => mkI t false false | None => mkI [] false true end.
Fixpoint skip_ws (t : text) : text := match t with c :: t' => if is_ws c then skip_ws t' else t | [] => [] end.
Fixpoint span (p : ascii -> bool) (t : text) : text * text :=
  match t with c :: t' => if p c then let '(a, b) := span p t' in (c :: a, b) else ([], t) | [] => ([], []) end.
Definition empty (t : text) : bool := match t with [] => true | _ => false end.
(** reader >> buffer; [None]: buffer keeps its value. *)
Definition read_word (s : istream) : istream * option text :=
  if good s then
    match skip_ws (i_rest s) with
    | [] => (mkI [] true true, None)
    | t => let '(w, r) := span (fun c => negb (is_ws c)) t in (mkI r (empty r) false, Some w)
    end
  else (mkI (i_rest s) (i_eof s) true, None).
Section Text.
Variable show : f64 -> text.
Variable strtod : text -> option f64.
Variable numch : ascii -> bool.
(** reader >> number; [None]: the variable keeps its value; a token that is not a number stores 0. *)
Definition read_num (s : istream) : istream * option f64 :=
  if good s then
    match skip_ws (i_rest s) with
    | [] => (mkI [] true true, None)
    | t => let '(w, r) := span numch t in
           match strtod w with
           | Some x => (mkI r (empty r) false, Some x)
           | None => (mkI r (empty r) true, Some fzero)
           end
    end
  else (mkI (i_rest s) (i_eof s) true, None).
(** reader.getline(discard, 1000): up to the end of the line, at most 999 characters. *)
Fixpoint line (n : nat) (t : text) {struct t} : text * bool * bool :=   (* rest, eof, fail *)
  match t with
  | [] => ([], true, false)
  | c :: t' => if Ascii.eqb c newline then (t', false, false) else match n with 0 => (t, false, true) | S n' => line n' t' end
  end.
Definition getline (s : istream) : istream :=
  if good s then let '(r, e, f) := line 999 (i_rest s) in mkI r e (f || (empty (i_rest s)))
  else mkI (i_rest s) (i_eof s) true.

Record param : Type := mkP { p_name : text; p_value : f64; p_error : f64; p_lower : f64; p_upper : f64 }.

(** writeToFile, :9-21: the line of a parameter, :16-17. *)
Definition param_line (p : param) : text :=
  p_name p ++ [space] ++ show (p_value p) ++ [space] ++ show (p_error p) ++ [space] ++ show (p_lower p) ++ [space] ++ show (p_upper p) ++ [newline].
Definition writeToFile (ps : list param) : text := concat (map param_line ps).

Inductive iores (A : Type) : Type := IoOk (a : A) | IoUB | IoFuel.
Arguments IoOk {A}. Arguments IoUB {A}. Arguments IoFuel {A}.

(** std::map<std::string, Variable*>: names with the index of the parameter, or the null pointer. *)
Definition nmap := list (text * option nat).
Fixpoint put (m : nmap) (k : text) (v : option nat) : nmap :=
  match m with [] => [(k, v)] | (k', v') :: t => if text_eqb k k' then (k, v) :: t else (k', v') :: put t k v end.
Fixpoint get (m : nmap) (k : text) : option (option nat) :=
  match m with [] => None | (k', v) :: t => if text_eqb k k' then Some v else get t k end.
(** :28-30 *)
Definition name_map (ps : list param) : nmap :=
  fold_left (fun m i => match nth_error ps i with Some p => put m (p_name p) (Some i) | None => m end) (seq 0 (length ps)) [].

(** The loop :38-62; reading a number that was never stored is undefined. *)
Fixpoint read_loop (fuel : nat) (s : istream) (buffer : text) (m : nmap) (numSet : nat) (ps : list param) : iores (list param) :=
  match fuel with
  | 0 => IoFuel
  | S fuel' =>
      let '(s, w) := read_word s in
      let buffer := match w with Some w => w | None => buffer end in
      if i_eof s then IoOk ps
      else
        let '(m, var) := match get m buffer with Some v => (m, v) | None => (put m buffer None, None) end in
        match var with
        | Some i =>
            let '(s, v) := read_num s in
            let '(s, e) := read_num s in
            let '(s, l) := read_num s in
            let '(s, u) := read_num s in
            match v, e, l, u, nth_error ps i with
            | Some v, Some e, Some l, Some u, Some p =>
                let ps := upd ps i (mkP (p_name p) v e l u) in
                if Nat.eqb (S numSet) (length m) then IoOk ps else read_loop fuel' s buffer m (S numSet) ps
            | _, _, _, _, _ => IoUB
            end
        | None => read_loop fuel' (getline s) buffer m numSet ps
        end
  end.
(** readFromFile, :23-65 *)
Definition readFromFile (fuel : nat) (f : option text) (ps : list param) : iores (list param) :=
  read_loop fuel (open f) [] (name_map ps) 0 ps.

(** writeListOfNumbers, :84-93 *)
Definition writeListOfNumbers (l : list f64) : text := concat (map (fun x => show x ++ [space]) l).
(** readListOfNumbers, :67-82 *)
Fixpoint list_loop (fuel : nat) (s : istream) (buffer : f64) (acc : list f64) : iores (list f64) :=
  match fuel with
  | 0 => IoFuel
  | S fuel' =>
      let '(s, x) := read_num s in
      let buffer := match x with Some x => x | None => buffer end in
      if i_eof s then IoOk acc else list_loop fuel' s buffer (acc ++ [buffer])
  end.
Definition readListOfNumbers (fuel : nat) (f : option text) (target : list f64) : iores (list f64) :=
  list_loop fuel (open f) fzero target.
End Text.
Arguments IoOk {A}. Arguments IoUB {A}. Arguments IoFuel {A}.
