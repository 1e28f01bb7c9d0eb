(** * What the properties about buffers and borrowed bytes say *)

From Coq Require Import Sorting.Permutation.
From Verif Require Import Base Buf_Model.

(** ** Buffers, seen from the foreign code: bytes and a capacity *)

Record abuf := AB { abytes : bytes; acap : Z }.

(** What one buffer shows. *)
Definition view_of (h : heap) (b : rbuf) : abuf :=
  AB (match block (data b) (blocks h) with
      | Some bs => firstn (Z.to_nat (len b)) bs
      | None => []
      end) (cap b).
Definition view (s : world) : list abuf := map (view_of (hp s)) (held s).

(** The intended effect of each operation on the buffers held.  [e] is the text in the
    error buffer of a refused call, which is left open. *)
Definition refused (e : bytes) (l : list abuf) : option (list abuf * result) :=
  Some (l ++ [AB e (zlen e)], RRefused UnexpectedError).

Definition spec (w : width) (e : bytes) (l : list abuf) (x : op) : option (list abuf * result) :=
  match x with
  | Empty => Some (l ++ [AB [] 0], RBuffer)
  | Alloc size =>
      if negb (is_u64 size) then None
      else if Z.leb size (isize_max w) then Some (l ++ [AB (repeat x00 (Z.to_nat size)) size], RBuffer)
      else refused e l
  | FromBytes m d =>
      if negb (is_i32 (flen d)) then None
      else if Z.ltb (flen d) 0 || (Z.eqb (fdata d) 0 && negb (Z.eqb (flen d) 0)) then refused e l
      else Some (l ++ [AB (read_mem m (fdata d) (Z.to_nat (flen d))) (flen d)], RBuffer)
  | Lower bs extra =>
      if Z.leb (zlen bs + Z.of_nat extra) (isize_max w) then Some (l ++ [AB bs (zlen bs + Z.of_nat extra)], RBuffer) else None
  | Write i off bs =>
      match nth_error l i with
      | None => None
      | Some b =>
          if Nat.leb off (length (abytes b)) && Z.leb (Z.of_nat off + zlen bs) (acap b)
          then Some (update_nth i (AB (splice off bs (abytes b)) (acap b)) l, RUnit) else None
      end
  | Truncate i n =>
      match nth_error l i with
      | None => None
      | Some b =>
          if Nat.leb n (length (abytes b)) then Some (update_nth i (AB (firstn n (abytes b)) (acap b)) l, RUnit) else None
      end
  | Reserve i additional extra =>
      if negb (is_u64 additional) then None else
      match nth_error l i with
      | None => None
      | Some b =>
          let n := zlen (abytes b) in
          if Z.leb (usize_bound w) additional then refused e l
          else if Z.ltb (isize_max w) (n + additional) then refused e (remove_nth i l)
          else if Z.ltb (isize_max w) (n + additional + Z.of_nat extra) then None
          else Some (remove_nth i l ++
                       [AB (abytes b) (if Z.leb (n + additional) (acap b) then acap b else n + additional + Z.of_nat extra)], RBuffer)
      end
  | Lift i =>
      match nth_error l i with
      | None => None
      | Some b => Some (remove_nth i l, RBytes (abytes b))
      end
  | Free i =>
      match nth_error l i with
      | None => None
      | Some b => Some (remove_nth i l, RUnit)
      end
  | Bogus k b =>
      if negb (malformed w b && is_u64 (cap b) && is_u64 (len b)) then None
      else match k with
           | BReserve n => if negb (is_u64 n) then None else refused e l
           | _ => refused e l
           end
  end.

(** [es]: one error text per operation. *)
Fixpoint spec_run (w : width) (es : list bytes) (l : list abuf) (xs : list op) : option (list abuf * list result) :=
  match xs, es with
  | [], [] => Some (l, [])
  | x :: xs', e :: es' =>
      match spec w e l x with
      | None => None
      | Some (l', r) =>
          match spec_run w es' l' xs' with
          | None => None
          | Some (l'', rs) => Some (l'', r :: rs)
          end
      end
  | _, _ => None
  end.

(** The one request the code does not treat as intended: a size that does not fit [usize]. *)
Definition fits (w : width) (x : op) : Prop :=
  match x with Alloc size => (size < usize_bound w)%Z | _ => True end.

(** The blocks that the buffers held point to. *)
Definition owned (l : list rbuf) : list Z := map data (filter (fun b => Z.ltb 0 (cap b)) l).

(** Exactly the blocks held are live; every other block was released once; nothing was
    released wrongly; lengths stay within capacities. *)
Definition sound (s : world) : Prop :=
  ub (hp s) = false /\
  Permutation (map fst (blocks (hp s))) (owned (held s)) /\
  NoDup (map fst (blocks (hp s))) /\
  NoDup (freed (hp s)) /\
  (forall p, In p (freed (hp s)) -> ~ In p (owned (held s))) /\
  (forall p, (16 <= p < next (hp s))%Z <-> In p (freed (hp s)) \/ In p (owned (held s))) /\
  (forall b, In b (held s) -> (0 <= len b <= cap b)%Z /\ zlen (abytes (view_of (hp s) b)) = len b).

(** ** Borrowed slices: descriptors that make sense *)
Definition good_slice (d : fbytes) : Prop := (0 <= flen d)%Z /\ (fdata d = 0%Z -> flen d = 0%Z).
