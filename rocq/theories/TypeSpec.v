(* C99 6.3.1.1, 6.3.1.8 and 6.5.2.2p6 on LP64 (char 8 bits signed, short 16, int 32, long 64; long long
   has the representation of long and is not distinguished from it). *)
From Coq Require Import ZArith Bool.
From Verif Require Import TypeModel.
Open Scope Z_scope.

Inductive ikind := Bool_ | SChar | UChar | Short | UShort | Int | UInt | Long | ULong.
Inductive arith := I (k : ikind) | Float | Double | LongDouble.

Definition rank (k : ikind) : Z :=
  match k with Bool_ => 0 | SChar | UChar => 1 | Short | UShort => 2 | Int | UInt => 3 | Long | ULong => 4 end.
Definition signed (k : ikind) : bool := match k with SChar | Short | Int | Long => true | _ => false end.
(* bits of the object; of the value for _Bool *)
Definition width (k : ikind) : Z :=
  match k with Bool_ => 1 | SChar | UChar => 8 | Short | UShort => 16 | Int | UInt => 32 | Long | ULong => 64 end.
Definition lo (k : ikind) : Z := if signed k then - 2 ^ (width k - 1) else 0.
Definition hi (k : ikind) : Z := if signed k then 2 ^ (width k - 1) - 1 else 2 ^ width k - 1.
Definition in_range (k : ikind) (v : Z) : Prop := lo k <= v <= hi k.

(* 6.3.1.1p2 *)
Definition Promoted (k p : ikind) : Prop :=
  (rank k <= rank Int /\ (forall v, in_range k v -> in_range Int v) /\ p = Int) \/
  (rank k <= rank Int /\ ~ (forall v, in_range k v -> in_range Int v) /\ p = UInt) \/
  (rank k > rank Int /\ p = k).

Definition unsigned_of (k : ikind) : ikind :=
  match k with SChar => UChar | Short => UShort | Int => UInt | Long => ULong | k => k end.

(* 6.3.1.8p1, integer part, on promoted operands *)
Definition Common_int (a b c : ikind) : Prop :=
  (a = b /\ c = a) \/
  (a <> b /\ signed a = signed b /\ rank a < rank b /\ c = b) \/
  (a <> b /\ signed a = signed b /\ rank b < rank a /\ c = a) \/
  exists s u, ((s = a /\ u = b) \/ (s = b /\ u = a)) /\ signed s = true /\ signed u = false /\
    ((rank s <= rank u /\ c = u) \/
     (rank u < rank s /\ (forall v, in_range u v -> in_range s v) /\ c = s) \/
     (rank u < rank s /\ ~ (forall v, in_range u v -> in_range s v) /\ c = unsigned_of s)).

Definition Common (a b c : arith) : Prop :=
  ((a = LongDouble \/ b = LongDouble) /\ c = LongDouble) \/
  (a <> LongDouble /\ b <> LongDouble /\ (a = Double \/ b = Double) /\ c = Double) \/
  (a <> LongDouble /\ b <> LongDouble /\ a <> Double /\ b <> Double /\ (a = Float \/ b = Float) /\ c = Float) \/
  exists i j p q k, a = I i /\ b = I j /\ Promoted i p /\ Promoted j q /\ Common_int p q k /\ c = I k.

(* 6.5.2.2p6 *)
Definition DefaultArg (a c : arith) : Prop :=
  match a with I i => exists p, Promoted i p /\ c = I p | Float => c = Double | _ => c = a end.

(* How the compiler represents the arithmetic types: any qualifiers. *)
Definition kind_of (k : ikind) : tkind :=
  match k with Bool_ => T_BOOL | SChar | UChar => T_CHAR | Short | UShort => T_SHORT | Int | UInt => T_INT
  | Long | ULong => T_LONG end.
Definition denotes (t : Type_) (a : arith) : Prop :=
  ty_pointer t = false /\
  match a with
  | I Bool_ => ty t = T_BOOL
  | I k => ty t = kind_of k /\ ty_unsigned t = negb (signed k)
  | Float => ty t = T_FLOAT /\ ty_unsigned t = false
  | Double => ty t = T_DOUBLE /\ ty_unsigned t = false
  | LongDouble => ty t = T_LDOUBLE /\ ty_unsigned t = false
  end.
Definition unqualified (t : Type_) : Prop := ty_const t = false /\ ty_volatile t = false /\ ty_restrict t = false.
