(** Model of the text of a model: FixedModel._toString (FixedModel.py:455-491), Model._toString and shortName (Model.py:937-957),
    Brackets._toString (1828-1839), BaseModel.shortName (BaseModel.py:279-285), baseName of PolynomialModel (PolynomialModel.py:161-166),
    LorentzModel (LorentzModel.py:203) and PowerLawModel (PowerLawModel.py:168), Tools-free.
    A text is a list of symbols: p_ with its digits, q_ with its digits, the text of a value, or any other character.  Regular expressions see
    the same, as long as no parameter follows directly upon another one and no name contains q_ or a p_ of its own. *)
From Coq Require Import Ascii String List Arith.
Import ListNotations.

Inductive tok := C (c : ascii) | P (ds : list nat) | Q (ds : list nat) | V (v : nat).
Definition text := list tok.
(** the characters of a string *)
Fixpoint str (s : string) : text := match s with EmptyString => [] | String c r => C c :: str r end.
Definition blank : tok := C " "%char.
Definition newline : tok := C (ascii_of_nat 10).

(** %d, int *)
Fixpoint dig (fuel n : nat) : list nat :=
  match fuel with
  | 0 => []
  | S f => if n <? 10 then [n] else dig f (n / 10) ++ [n mod 10]
  end.
Definition digits (n : nat) : list nat := dig (S n) n.
Definition value (ds : list nat) : nat := fold_left (fun a d => 10 * a + d) ds 0.
Definition par (k : nat) : tok := P (digits k).

Fixpoint same (a b : list nat) : bool :=
  match a, b with [], [] => true | x :: a, y :: b => (x =? y) && same a b | _, _ => false end%bool.
(** b without a in front of it *)
Fixpoint strip (a b : list nat) : option (list nat) :=
  match a, b with
  | [], _ => Some b
  | x :: a, y :: b => if x =? y then strip a b else None
  | _, [] => None
  end.

(** 460-465: re.sub( r"p_%d([^0-9]|$)", "(..) ", .. ): the character that follows is replaced too *)
Fixpoint subValue (k v : nat) (t : text) : text :=
  match t with
  | [] => []
  | P ds :: r => if same ds (digits k)
                 then V v :: blank :: match r with C _ :: r' => subValue k v r' | _ => subValue k v r end
                 else P ds :: subValue k v r
  | x :: r => x :: subValue k v r
  end.
(** 469-471: re.sub( r"p_%d([^0-9]|$)", r"q_%d\1", .. ) *)
Definition subNumber (k i : nat) (t : text) : text :=
  map (fun x => match x with P ds => if same ds (digits k) then Q (digits i) else P ds | _ => x end) t.
Definition qtop (t : text) : text := map (fun x => match x with Q ds => P ds | _ => x end) t.
(** 458-473; fixed: the keys and their values, parlist: those that are free *)
Definition fixedText (fixed : list (nat * nat)) (parlist : list nat) (baseName : text) : text :=
  let t := fold_left (fun t kv => subValue (fst kv) (snd kv) t) fixed baseName in
  qtop (fold_left (fun t ik => subNumber (snd ik) (fst ik) t) (combine (seq 0 (length parlist)) parlist) t).

(** 478-489: the while loop.  re.sub( r'p_%d', r'q_%d', .. ) without a look at what follows *)
Fixpoint firstP (t : text) : option (list nat) :=
  match t with [] => None | P ds :: _ => Some ds | _ :: r => firstP r end.
Definition subPrefix (k n : nat) (t : text) : text :=
  map (fun x => match x with
                | P ds => match strip (digits k) ds with Some rest => Q (digits (k + n) ++ rest) | None => P ds end
                | _ => x end) t.
(** None: it does not end *)
Fixpoint shiftLoop (fuel n : nat) (t : text) : option text :=
  match firstP t with
  | None => Some t
  | Some ds => match fuel with 0 => None | S f => shiftLoop f n (subPrefix (value ds) n t) end
  end.
Definition shiftText (npars : nat) (t : text) : option text :=
  if npars =? 0 then Some t else option_map qtop (shiftLoop (length t) npars t).

(** A chain: of base models, with npbase and the text without shift, or Brackets; each with its operation *)
Inductive op := NOP | ADD | SUB | MUL | DIV | PIP.
Definition opname (o : op) : text :=
  str (match o with NOP => " null" | ADD => " +" | SUB => " -" | MUL => " *" | DIV => " /" | PIP => " |" end) ++ [newline].
Inductive mdl := MBase (np : nat) (t : text) | MBr (c : list (op * mdl)).
Fixpoint npbase (m : mdl) : nat :=
  match m with MBase np _ => np | MBr c => list_sum (map (fun l => npbase (snd l)) c) end.
(** Brackets.__init__ (1735-1741) *)
Definition isBr (m : mdl) : bool := match m with MBr _ => true | _ => false end.
Definition deep (c : list (op * mdl)) : nat := S (length (filter (fun l => isBr (snd l)) c)).
Definition both (a b : option text) : option text := match a, b with Some a, Some b => Some (a ++ b) | _, _ => None end.
(** Model._toString and Brackets._toString; the loop follows _next *)
Section Chain.
Context (f : mdl -> nat -> nat -> option text).
Fixpoint chainText (first : bool) (c : list (op * mdl)) (indent npars : nat) : option text :=
  match c with
  | [] => Some []
  | (o, m) :: r =>
      both (Some (if first then [] else opname o ++ repeat blank indent))
           (both (f m indent npars) (chainText false r indent (npars + npbase m)))
  end.
End Chain.
Fixpoint toString (m : mdl) (indent npars : nat) : option text :=
  match m with
  | MBase _ t => shiftText npars t
  | MBr c => both (Some (str "{ ")) (both (chainText toString true c (indent + 2 * deep c) npars) (Some (str " }")))
  end.
Definition modelText (c : list (op * mdl)) : option text := chainText toString true c 0 0.

(** PolynomialModel.baseName *)
Definition polyName (npmax : nat) : text :=
  str "Polynomial: f( x:p ) = " ++ [par 0] ++ (if 1 <? npmax then str " + " ++ [par 1] ++ str " * x" else []) ++
  concat (map (fun k => str " + " ++ [par k] ++ str " * x^" ++ map (fun d => C (ascii_of_nat (48 + d))) (digits k)) (seq 2 (npmax - 2))).
(** LorentzModel.baseName, PowerLawModel.baseName *)
Definition lorentzName : text :=
  str "Lorentz: f( x:p ) = " ++ [par 0] ++ str " * " ++ [par 2] ++ str "^2 / ( ( x - " ++ [par 1] ++ str " )^2 + " ++ [par 2] ++ str "^2 )".
Definition powerlawName : text := str "PowerLaw: f( x:p ) = " ++ [par 0] ++ str " * ( x - " ++ [par 1] ++ str ")^" ++ [par 2].

(** BaseModel.shortName: re.match( "^[a-zA-Z_]*", .. ); a parameter in front would count as letters too *)
Definition letter (c : ascii) : bool :=
  let n := nat_of_ascii c in ((65 <=? n) && (n <=? 90) || (97 <=? n) && (n <=? 122) || (n =? 95))%bool.
Fixpoint shortName (t : text) : text :=
  match t with C c :: r => if letter c then C c :: shortName r else [] | _ => [] end.
(** Model.shortName; Brackets has no baseName: None is the AttributeError *)
Definition opshort (o : op) : text :=
  match o with NOP => str " null" ++ [newline] | _ => str (match o with ADD => " + " | SUB => " - " | MUL => " * " | DIV => " / " | _ => " | " end) end.
Fixpoint chainShort (first : bool) (c : list (op * mdl)) : option text :=
  match c with
  | [] => Some []
  | (o, m) :: r => both (Some (if first then [] else opshort o))
                        (both (match m with MBase _ t => Some (shortName t) | MBr _ => None end) (chainShort false r))
  end.
