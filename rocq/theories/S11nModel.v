(** Model of include/edyn/serialization/memory_archive.hpp and std_s11n.hpp. *)
From Verif Require Import Outcome.
From Verif Require Export S11nTypes.
Local Open Scope nat_scope.

Fixpoint ty_eqb (a b : ty) : bool :=
  match a, b with
  | TInt n, TInt m => Nat.eqb n m
  | TBool, TBool | TEmpty, TEmpty | TStr, TStr | TBits, TBits => true
  | TVec a, TVec b | TOpt a, TOpt b => ty_eqb a b
  | TArr n a, TArr m b => Nat.eqb n m && ty_eqb a b
  | TPair a a', TPair b b' | TMap a a', TMap b b' => ty_eqb a b && ty_eqb a' b'
  | TVar l, TVar l' =>
    (fix go (l l' : list ty) := match l, l' with
                                | [], [] => true
                                | x :: l, y :: l' => ty_eqb x y && go l l'
                                | _, _ => false
                                end) l l'
  | _, _ => false
  end.

(** Value-initialised object of a type. *)
Fixpoint dflt (t : ty) : val :=
  match t with
  | TInt _ => VInt 0 | TBool => VBool false | TEmpty => VUnit
  | TStr | TVec _ => VList [] | TBits => VBits []
  | TArr n t => VList (replicate n (dflt t))
  | TPair a b => VPair (dflt a) (dflt b)
  | TVar (t :: _) => VVar 0 (dflt t)
  | TVar [] => VUnit
  | TOpt _ => VNone
  | TMap _ _ => VMap []
  end.

(** Little-endian representation. *)
Fixpoint le_bytes (n : nat) (x : N) : list N :=
  match n with O => [] | S n => (x mod 256)%N :: le_bytes n (x / 256)%N end.
Fixpoint le_val (l : list N) : N :=
  match l with [] => 0%N | b :: l => (b + 256 * le_val l)%N end.

(** The 16-bit element count, std_s11n.hpp:21, 34, 46, 190. *)
Definition max16 : N := 65535.
Definition clamp16 (n : nat) : N := N.min (N.of_nat n) max16.
Definition size16 (n : nat) : nat := N.to_nat (clamp16 n).

(** ** Output: the chunks passed to write_bytes, in order *)
(** One 32-bit set of bits, std_s11n.hpp:64-69. *)
Fixpoint bits_val (l : list bool) : N :=
  match l with [] => 0%N | b :: l => ((if b then 1 else 0) + 2 * bits_val l)%N end.
(** The sets of a bit vector of the given size, 53-70. *)
Definition num_sets (n : nat) : nat := n / 32 + (if n mod 32 =? 0 then 0 else 1).
Definition bits_chunks (l : list bool) : list (list N) :=
  (λ i, le_bytes 4 (bits_val (take 32 (drop (i * 32) l)))) <$> seq 0 (num_sets (length l)).
(** index_of_v<uint8_t, T, Ts...>: the first alternative of the same type. *)
Fixpoint index_of (t : ty) (ts : list ty) : nat :=
  match ts with [] => 0 | x :: ts => if ty_eqb t x then 0 else S (index_of t ts) end.

Fixpoint wr (t : ty) (v : val) {struct t} : list (list N) :=
  match t, v with
  | TInt n, VInt x => [le_bytes n x]                              (* memory_archive.hpp:107-112 *)
  | TBool, VBool b => [le_bytes 1 (if b then 1 else 0)]
  | TEmpty, _ => []                                               (* 86-89, empty types are skipped *)
  | TStr, VList l =>                                              (* std_s11n.hpp:18-28 *)
    le_bytes 2 (clamp16 (length l)) ::
    concat ((λ x, match x with VInt c => [le_bytes 1 c] | _ => [] end) <$> take (size16 (length l)) l)
  | TVec t, VList l =>                                            (* 30-40 *)
    le_bytes 2 (clamp16 (length l)) :: concat (wr t <$> take (size16 (length l)) l)
  | TBits, VBits l =>                                             (* 42-79 *)
    le_bytes 2 (clamp16 (length l)) :: bits_chunks (take (size16 (length l)) l)
  | TArr n t, VList l => concat (wr t <$> l)                      (* 95-100 *)
  | TPair a b, VPair x y => wr a x ++ wr b y                      (* 167-171 *)
  | TVar ts, VVar i x =>                                          (* 138-146 *)
    (fix go (l : list ty) (j : nat) {struct l} :=
       match l, j with
       | t :: _, O => le_bytes 1 (N.of_nat (index_of t ts)) :: wr t x
       | _ :: l, S j => go l j
       | [], _ => []
       end) ts i
  | TOpt t, VNone => [le_bytes 1 0]                               (* 178-195 *)
  | TOpt t, VSome x => le_bytes 1 1 :: wr t x
  | TMap k v, VMap l =>                                           (* 206-225: every entry is written *)
    le_bytes 2 (clamp16 (length l)) :: concat ((λ e : val * val, wr k e.1 ++ wr v e.2) <$> l)
  | _, _ => []
  end.
(** What is left of the value after writing it: strings and vectors are resized
    to the written size, also by an output archive (23, 36, 48). *)
Fixpoint wr_left (t : ty) (v : val) {struct t} : val :=
  match t, v with
  | TStr, VList l => VList (take (size16 (length l)) l)
  | TVec t, VList l => VList (wr_left t <$> take (size16 (length l)) l)
  | TBits, VBits l => VBits (take (size16 (length l)) l)
  | TArr _ t, VList l => VList (wr_left t <$> l)
  | TPair a b, VPair x y => VPair (wr_left a x) (wr_left b y)
  | TVar ts, VVar i x =>
    (fix go (l : list ty) (j : nat) {struct l} :=
       match l, j with
       | t :: _, O => VVar i (wr_left t x)
       | _ :: l, S j => go l j
       | [], _ => v
       end) ts i
  | TOpt t, VSome x => VSome (wr_left t x)
  | TMap k w, VMap l => VMap ((λ e : val * val, (wr_left k e.1, wr_left w e.2)) <$> l)
  | _, _ => v
  end.
(** memory_output_archive: the vector grows by each chunk, 107-112 *)
Definition out_bytes (buf : list N) (cs : list (list N)) : list N := buf ++ concat cs.

(** fixed_memory_output_archive: a buffer of fixed size, 144-163 *)
Record fout := FOut { fo_buf : list N; fo_pos : nat; fo_failed : bool }.
(** Storing into a buffer; outside of it is UB. *)
Definition store_at (buf : list N) (pos : nat) (bs : list N) : res (list N) :=
  _ ← require_ (pos + length bs <=? length buf);
  Ok (take pos buf ++ bs ++ drop (pos + length bs) buf).
Definition fwrite (s : fout) (c : list N) : res fout :=
  if fo_failed s then Ok s else
  if length (fo_buf s) <? fo_pos s + length c then Ok (FOut (fo_buf s) (fo_pos s) true) else
  b ← store_at (fo_buf s) (fo_pos s) c;
  Ok (FOut b (fo_pos s + length c) false).
Fixpoint fwrites (s : fout) (cs : list (list N)) : res fout :=
  match cs with [] => Ok s | c :: cs => s' ← fwrite s c; fwrites s' cs end.

(** ** Input *)
(** Position and failure flag of memory_input_archive (64-68). [in_bad] records
    that a value without a defined meaning was used: a bool with a
    representation other than 0 and 1, or an uninitialised variable. *)
Record inp := Inp { in_pos : nat; in_failed : bool; in_bad : bool }.
(** read_bytes, 49-61: [None] when the target is left as it was. Touching a
    byte outside the buffer is UB. *)
Definition load_at (buf : list N) (pos n : nat) : res (list N) :=
  _ ← require_ (pos + n <=? length buf); Ok (take n (drop pos buf)).
Definition rd_bytes (buf : list N) (n : nat) (s : inp) : res (option N * inp) :=
  if in_failed s then Ok (None, s) else
  if length buf <? in_pos s + n then Ok (None, Inp (in_pos s) true (in_bad s)) else
  b ← load_at buf (in_pos s) n;
  Ok (Some (le_val b), Inp (in_pos s + n) false (in_bad s)).
Definition mark_bad (s : inp) : inp := Inp (in_pos s) (in_failed s) true.
(** A bool target, one byte. *)
Definition rd_bool (buf : list N) (old : bool) (s : inp) : res (bool * inp) :=
  '(o, s) ← rd_bytes buf 1 s;
  match o with
  | None => Ok (old, s)
  | Some x => if (x =? 0)%N then Ok (false, s) else
              if (x =? 1)%N then Ok (true, s) else Ok (true, mark_bad s)
  end.
(** The 16-bit count variable starts as the (clamped) current size. *)
Definition rd_size (buf : list N) (cur : nat) (s : inp) : res (nat * inp) :=
  '(o, s) ← rd_bytes buf 2 s; Ok (N.to_nat (default (clamp16 cur) o), s).
(** resize(n) *)
Definition resized {A} (d : A) (n : nat) (l : list A) : list A := take n l ++ replicate (n - length l) d.
(** Elements read in place one after the other. *)
Fixpoint rd_each {A} (f : A → inp → res (A * inp)) (l : list A) (s : inp) : res (list A * inp) :=
  match l with
  | [] => Ok ([], s)
  | x :: l => '(y, s) ← f x s; '(l', s) ← rd_each f l s; Ok (y :: l', s)
  end.
(** One set of bits, 71-76: [set] has no initial value. *)
Definition rd_set (buf : list N) (count : nat) (s : inp) : res (list bool * inp) :=
  '(o, s) ← rd_bytes buf 4 s;
  match o with
  | Some x => Ok ((λ j, N.testbit x (N.of_nat j)) <$> seq 0 count, s)
  | None => Ok (replicate count false, mark_bad s)
  end.
Fixpoint rd_sets (buf : list N) (size : nat) (is : list nat) (s : inp) : res (list bool * inp) :=
  match is with
  | [] => Ok ([], s)
  | i :: is => '(a, s) ← rd_set buf (Nat.min (size - i * 32) 32) s;
               '(b, s) ← rd_sets buf size is s; Ok (a ++ b, s)
  end.
(** std::map::emplace: no effect when the key exists; [klt] is operator<. *)
Fixpoint map_emplace (klt : val → val → bool) (k v : val) (l : list (val * val)) : list (val * val) :=
  match l with
  | [] => [(k, v)]
  | e :: l' => if klt e.1 k then e :: map_emplace klt k v l'
               else if klt k e.1 then (k, v) :: l else l
  end.
(** The loop of 217-220: one pair object is reused for all entries. *)
Fixpoint rd_entries (klt : val → val → bool) (fk fv : val → inp → res (val * inp))
    (n : nat) (k v : val) (l : list (val * val)) (s : inp) : res (list (val * val) * inp) :=
  match n with
  | O => Ok (l, s)
  | S n => '(k, s) ← fk k s; '(v, s) ← fv v s;
           rd_entries klt fk fv n k v (map_emplace klt k v l) s
  end.
Definition list_of (v : val) : list val := match v with VList l => l | _ => [] end.
Definition bits_of (v : val) : list bool := match v with VBits l => l | _ => [] end.
Definition map_of (v : val) : list (val * val) := match v with VMap l => l | _ => [] end.

Section rd.
Variable klt : val → val → bool.
Variable buf : list N.
(** [rd t old s]: reading into the object [old]. *)
Fixpoint rd (t : ty) (old : val) (s : inp) {struct t} : res (val * inp) :=
  match t with
  | TInt n => '(o, s) ← rd_bytes buf n s; Ok (match o with Some x => VInt x | None => old end, s)
  | TBool => '(b, s) ← rd_bool buf (match old with VBool b => b | _ => false end) s; Ok (VBool b, s)
  | TEmpty => Ok (old, s)
  | TStr =>
    '(n, s) ← rd_size buf (length (list_of old)) s;
    '(l, s) ← rd_each (λ x s, '(o, s) ← rd_bytes buf 1 s; Ok (match o with Some c => VInt c | None => x end, s))
                (resized (VInt 0) n (list_of old)) s;
    Ok (VList l, s)
  | TVec t =>
    '(n, s) ← rd_size buf (length (list_of old)) s;
    '(l, s) ← rd_each (rd t) (resized (dflt t) n (list_of old)) s;
    Ok (VList l, s)
  | TBits =>
    '(n, s) ← rd_size buf (length (bits_of old)) s;
    '(l, s) ← rd_sets buf n (seq 0 (num_sets n)) s;
    Ok (VBits l, s)
  | TArr _ t => '(l, s) ← rd_each (rd t) (list_of old) s; Ok (VList l, s)
  | TPair a b =>
    let '(x, y) := match old with VPair x y => (x, y) | _ => (dflt a, dflt b) end in
    '(x, s) ← rd a x s; '(y, s) ← rd b y s; Ok (VPair x y, s)
  | TVar ts =>                                                    (* 107-137: an unknown id reads nothing *)
    '(o, s) ← rd_bytes buf 1 s;
    let id := N.to_nat (default 0%N o) in
    (fix go (l : list ty) (j : nat) {struct l} :=
       match l, j with
       | t :: _, O => '(x, s) ← rd t (dflt t) s; Ok (VVar id x, s)
       | _ :: l, S j => go l j
       | [], _ => Ok (old, s)
       end) ts id
  | TOpt t =>
    '(b, s) ← rd_bool buf (match old with VSome _ => true | _ => false end) s;
    if (b : bool) then '(x, s) ← rd t (dflt t) s; Ok (VSome x, s) else Ok (VNone, s)
  | TMap k v =>
    '(n, s) ← rd_size buf (length (map_of old)) s;
    '(l, s) ← rd_entries klt (rd k) (rd v) n (dflt k) (dflt v) (map_of old) s;
    Ok (VMap l, s)
  end.
(** A read schedule: several objects one after the other (operator()(Ts&...)). *)
Fixpoint rd_all (l : list (ty * val)) (s : inp) : res (list val * inp) :=
  match l with
  | [] => Ok ([], s)
  | (t, v) :: l => '(x, s) ← rd t v s; '(xs, s) ← rd_all l s; Ok (x :: xs, s)
  end.
End rd.
