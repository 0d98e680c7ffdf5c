(** * SpecEnum: how C++ reads the definition of an enum. *)
From Coq Require Import String.
From Verif Require Import Base Schema Printf Generator SpecMembers.
From Coq Require Import List.

(** ** Tokens: names and numbers are runs of letters, digits and "_"; the other characters that occur in the definition
    of an enum are tokens by themselves, unless they are written twice without anything between (a longer token of C++).
    None: any other character. *)
Definition digit (c : Z) : bool := (48 <=? c) && (c <=? 57).
Definition letter (c : Z) : bool := ((97 <=? c) && (c <=? 122)) || ((65 <=? c) && (c <=? 90)) || (c =? 95).
Definition white (c : Z) : bool := (c =? 32) || (c =? 10).
Definition single (c : Z) : bool := existsb (Z.eqb c) (chars "{}=,:;-").
(** [run]: the letters and digits just before. *)
Definition ended (run : text) (rest : option (list text)) : option (list text) :=
  match run with [] => rest | _ => option_map (cons run) rest end.
Fixpoint tokens_after (run : text) (s : text) : option (list text) :=
  match s with
  | [] => ended run (Some [])
  | c :: s' =>
      if letter c || digit c then tokens_after (run ++ [c]) s'
      else if white c then ended run (tokens_after [] s')
      else if single c && negb (match s' with d :: _ => c =? d | [] => false end)
           then ended run (option_map (cons [c]) (tokens_after [] s'))
           else None
  end.
Definition tokens (s : text) : option (list text) := tokens_after [] s.

(** ** Numbers: digits, octal if the first of several is 0. *)
Definition positional (base : Z) (ds : text) : Z := fold_left (fun n c => base * n + (c - 48)) ds 0.
Definition literal (t : text) : option Z :=
  match t with
  | [] => None
  | c :: t' =>
      if negb (forallb digit t) then None
      else if (c =? 48) && negb (match t' with [] => true | _ => false end)
           then (if forallb (fun d => d <=? 55) t then Some (positional 8 t) else None)
           else Some (positional 10 t)
  end.
(** A name: no digit first, no keyword. *)
Definition cpp_name (t : text) : Prop :=
  (exists c r, t = c :: r /\ letter c = true /\ Forall (fun d => letter d = true \/ digit d = true) r) /\ ~ In t keywords.

(** ** enumerators: name = number, separated by commas; a comma at the end is allowed. *)
Definition is (s : string) (t : text) : bool := text_eqb t (chars s).
Fixpoint enumerators (ts : list text) : option (list (text * Z)) :=
  match ts with
  | [] => None
  | n :: ts1 =>
      if is "}" n then match ts1 with [e] => if is ";" e then Some [] else None | _ => None end
      else
      match ts1 with
      | e :: v :: ts2 =>
          if negb (is "=" e) then None
          else
          if is "-" v
          then match ts2 with
               | w :: c :: ts3 =>
                   match literal w with
                   | Some z =>
                       if is "," c then option_map (cons (n, - z)) (enumerators ts3)
                       else match ts3 with [e'] => if is "}" c && is ";" e' then Some [(n, - z)] else None | _ => None end
                   | None => None
                   end
               | _ => None
               end
          else match ts2 with
               | c :: ts3 =>
                   match literal v with
                   | Some z =>
                       if is "," c then option_map (cons (n, z)) (enumerators ts3)
                       else match ts3 with [e'] => if is "}" c && is ";" e' then Some [(n, z)] else None | _ => None end
                   | None => None
                   end
               | [] => None
               end
      | _ => None
      end
  end.

(** enum class <name> : uint32_t { ... }; *)
Definition enum_definition (s : text) : option (text * list (text * Z)) :=
  match tokens s with
  | Some (a :: b :: n :: c :: u :: o :: ts) =>
      if is "enum" a && is "class" b && is ":" c && is "uint32_t" u && is "{" o
      then option_map (fun l => (n, l)) (enumerators ts) else None
  | _ => None
  end.

(** C++ accepts it: names that can be declared, each once, and numbers that uint32_t can hold (a conversion
    that changes the number is not allowed here). *)
Definition enum_accepted (name : text) (values : list (text * Z)) : Prop :=
  cpp_name name /\ Forall cpp_name (map fst values) /\ NoDup (map fst values) /\ Forall (fun v => 0 <= snd v < 2 ^ 32) values.

(** ** What protoc guarantees of an enum: names of letters, digits and "_", each once; numbers of 32 bits. *)
Definition proto_name (t : text) : Prop :=
  exists c r, t = c :: r /\ letter c = true /\ Forall (fun d => letter d = true \/ digit d = true) r.
Definition enum_legal (name : text) (values : list (text * Z)) : Prop :=
  proto_name name /\ Forall proto_name (map fst values) /\ NoDup (map fst values)
  /\ Forall (fun v => - 2 ^ 31 <= snd v < 2 ^ 31) values.
