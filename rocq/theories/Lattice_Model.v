(** Model of mockfactory/remap.py:324-448: gcd, coprime_triples and Cuboid.generate_lattice_vectors. *)
Require Import Reals ZArith List Bool.
From Verif Require Import Base Vec3 Remap_Model.
Import ListNotations.
Open Scope R_scope.

(** remap.py:412-415, the loop of Euclid's algorithm, with a number of steps. *)
Fixpoint euclid (fuel : nat) (a b : Z) : result Z :=
  match fuel with
  | O => Err OutOfFuel
  | S f => if (b =? 0)%Z then Ok a else euclid f b (a mod b)
  end.

(** remap.py:408-416: two arguments. *)
Definition gcd2 (a b : Z) : result Z :=
  let a := if (a <? 0)%Z then (- a)%Z else a in
  let b := if (b <? 0)%Z then (- b)%Z else b in
  euclid (S (Z.to_nat b)) a b.

(** remap.py:402-420 [gcd]. *)
Fixpoint gcd (args : list Z) : result Z :=
  match args with
  | [] => Err IndexError
  | [a] => Ok a
  | a :: ((b :: l) as t) => match l with [] => gcd2 a b | _ => do c <- gcd t; gcd2 a c end
  end.

(** tuple(sorted([i, j, k])). *)
Definition sort3 (i j k : Z) : ipos :=
  let '(a, b) := if (j <? i)%Z then (j, i) else (i, j) in
  if (k <? a)%Z then (k, a, b) else if (k <? b)%Z then (a, k, b) else (a, b, k).

(** set.add; a set is a list without repetition. *)
Definition ipos_eqb (t u : ipos) : bool :=
  let '(a, b, c) := t in let '(d, e, f) := u in ((a =? d) && (b =? e) && (c =? f))%Z.
Definition set_add (t : ipos) (s : list ipos) : list ipos := if existsb (ipos_eqb t) s then s else s ++ [t].

(** remap.py:441-447: the loops over k, for a pair (i, j). *)
Definition add_pair (range : list Z) (i j : Z) (s : list ipos) : result (list ipos) :=
  do g <- gcd [i; j];
  if (g =? 1)%Z then Ok (fold_left (fun s k => set_add (sort3 i j k) s) range s)
  else fold_left (fun s k => do s <- s; do g <- gcd [i; j; k]; Ok (if (g =? 1)%Z then set_add (sort3 i j k) s else s)) range (Ok s).

(** remap.py:423-449 [coprime_triples]. *)
Definition coprime_triples (range : list Z) : result (list ipos) :=
  fold_left (fun s i => fold_left (fun s j => do s <- s; add_pair range i j s) range s) range (Ok []).

(** itertools.permutations of a triple. *)
Definition permutations3 (t : ipos) : list ipos :=
  let '(a, b, c) := t in [(a, b, c); (a, c, b); (b, a, c); (b, c, a); (c, a, b); (c, b, a)].

(** A range (min, max) of sizes; the maximum may be infinite. *)
Definition srange : Type := (R * option R)%type.
Definition in_srange (r : srange) (x : R) : bool := Rleb (fst r) x && match snd r with None => true | Some h => Rleb x h end.

(** remap.py:355-362: argument cuboidranges (a single range, if given alone, is a list of one); None or [] selects nothing. *)
Definition fill_ranges (cuboidranges : option (list srange)) : option (list srange) :=
  match cuboidranges with
  | None => None
  | Some [] => None
  | Some l => Some (l ++ repeat (0, None) (3 - length l))
  end.
Definition range_at (i : nat) (l : list srange) : srange := nth i l (0, None).

Definition basis : Type := (ipos * ipos * ipos)%type.

(** sorted(cuboidsize)[::-1]. *)
Definition sort_desc (t : R * R * R) : R * R * R :=
  let '(x, y, z) := t in
  let '(a, b) := if Rltb y x then (y, x) else (x, y) in
  let '(a, b, c) := if Rltb z a then (z, a, b) else if Rltb z b then (a, z, b) else (a, b, z) in
  (c, b, a).

(** A dictionary from sizes to lists of bases, in order of insertion. *)
Definition dict : Type := list ((R * R * R) * list basis).
Definition key_eqb (k l : R * R * R) : bool :=
  let '(a, b, c) := k in let '(d, e, f) := l in Reqb a d && Reqb b e && Reqb c f.

(** remap.py:392-395. *)
Fixpoint dict_add (maxcomb : option nat) (box : R * R * R) (u : basis) (d : dict) : dict :=
  match d with
  | [] => [(box, [u])]
  | (k, l) :: d =>
    if key_eqb k box then (k, match maxcomb with
                              | None => l ++ [u]
                              | Some m => if Nat.ltb (length l) m then l ++ [u] else l
                              end) :: d
    else (k, l) :: dict_add maxcomb box u d
  end.

(** remap.py:386: cuboidsize of a basis. *)
Definition basis_size (boxsize : vec) (u : basis) : result (R * R * R) :=
  let '(u1, u2, u3) := u in
  do e <- orthogonalize (vec_of u1) (vec_of u2) (vec_of u3);
  let '(e1, e2, e3) := e in
  Ok (rnorm (vmul e1 boxsize), rnorm (vmul e2 boxsize), rnorm (vmul e3 boxsize)).

(** remap.py:383-395: the body of the loop, for one basis. *)
Definition lattice_step (maxcomb : option nat) (boxsize : vec) (ranges : option (list srange)) (sort : bool) (d : dict) (u : basis) : result dict :=
  let '(u1, u2, u3) := u in
  if Req_EM_T (det3 (vec_of u1) (vec_of u2) (vec_of u3)) 1 then
    do size <- basis_size boxsize u;
    let '(s1, s2, s3) := size in
    let keep := match ranges with
                | None => true
                | Some r => in_srange (range_at 1 r) s2 && in_srange (range_at 2 r) s3
                end in
    if keep then Ok (dict_add maxcomb (if sort then sort_desc size else size) u d) else Ok d
  else Ok d.

(** remap.py:324-396 [generate_lattice_vectors]. [enum] is the order in which Python iterates over the set of coprime triples. *)
Definition generate_lattice_vectors (enum : list ipos -> list ipos) (maxint : Z) (maxcomb : option nat) (boxsize : vec)
    (cuboidranges : option (list srange)) (sort : bool) : result dict :=
  let ranges := fill_ranges cuboidranges in
  do coprimes <- coprime_triples (arange (- maxint) (maxint + 1));
  let triplets := flat_map permutations3 (enum coprimes) in
  let first := match ranges with
               | None => triplets
               | Some r => filter (fun e => in_srange (range_at 0 r) (rnorm (vmul (vec_of e) boxsize))) triplets
               end in
  let bases := flat_map (fun x => flat_map (fun y => map (fun z => (x, y, z)) triplets) triplets) first in
  fold_left (fun d u => do d <- d; lattice_step maxcomb boxsize ranges sort d u) bases (Ok []).
