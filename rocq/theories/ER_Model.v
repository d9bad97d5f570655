(** Model of neorl/hybrid/pesacore/er.py (class ExperienceReplay, 26-161). *)
From Coq Require Import List Arith ZArith QArith Bool.
From Verif Require Import Base.
Import ListNotations.
Open Scope nat_scope.

Section ER.
  Context {X M : Type}.
  Variable eqX : X -> X -> bool.    (* == on attribute vectors *)
  Variable eqM : M -> M -> bool.    (* == on method names *)

  (** er.py 77-79, 92-94: a tuple (x, obj, method) or (x, obj). *)
  Definition sample : Type := (X * Q * option M)%type.
  Definition sx (a : sample) : X := fst (fst a).
  Definition obj (a : sample) : Q := snd (fst a).

  (** Python's == on these tuples. *)
  Definition sample_eqb (a b : sample) : bool :=
    eqX (sx a) (sx b) && Qeq_bool (obj a) (obj b) &&
    match snd a, snd b with
    | None, None => true
    | Some m, Some m' => eqM m m'
    | _, _ => false
    end.

  (** [sample in self.storage] *)
  Definition mem_in (a : sample) (l : list sample) : bool := existsb (sample_eqb a) l.

  (** er.py 27-34 *)
  Record memory : Type := mkMem { store : list sample; msize : nat; next : nat }.
  Definition new_memory (size : nat) : memory := mkMem [] size 0.

  (** er.py 56, 63 *)
  Definition memory_can_sample (m : memory) (n : nat) : bool := n <=? length (store m).
  Definition memory_is_full (m : memory) : bool := length (store m) =? msize m.

  (** er.py 83-88 and 97-102; [None]: ZeroDivisionError of the modulo for size 0. *)
  Definition add1 (m : memory) (a : sample) : option memory :=
    if mem_in a (store m) then Some m
    else if msize m =? 0 then None
    else Some (mkMem (if length (store m) <=? next m then store m ++ [a]
                      else set_nth (store m) (next m) a)
                     (msize m) ((next m + 1) mod (msize m))).

  (** er.py 75-79: zipping a batch; an empty method list is falsy. *)
  Definition zip_batch (xs : list X) (os : list Q) (ms : option (list M)) : list sample :=
    match ms with
    | Some ((_ :: _) as l) => map (fun t => (fst (fst t), snd (fst t), Some (snd t)))
                                (combine (combine xs os) l)
    | _ => map (fun t => (fst t, snd t, None)) (combine xs os)
    end.

  (** er.py 65-102 *)
  Definition add_single (m : memory) (x : X) (o : Q) (meth : option M) : option memory :=
    add1 m (x, o, meth).
  Definition add_batch (m : memory) xs os ms : option memory :=
    ofold add1 m (zip_batch xs os ms).

  (** [self.storage.sort(key=lambda e: e[1], reverse=True)]: stable, descending. *)
  Fixpoint insert_desc (a : sample) (l : list sample) : list sample :=
    match l with
    | [] => [a]
    | b :: r => if Qle_bool (obj b) (obj a) then a :: b :: r else b :: insert_desc a r
    end.
  Fixpoint sort_desc (l : list sample) : list sample :=
    match l with [] => [] | a :: r => insert_desc a (sort_desc r) end.
  Definition sort_store (m : memory) : memory := mkMem (sort_desc (store m)) (msize m) (next m).

  (** er.py 132-134: uniform sampling with the drawn indices. *)
  Fixpoint pick (l : list sample) (draws : list nat) : option (list sample) :=
    match draws with
    | [] => Some []
    | i :: r => match nth_error l i, pick l r with
                | Some a, Some rs => Some (a :: rs)
                | _, _ => None
                end
    end.
  Definition sample_uniform (m : memory) (draws : list nat) : option (list sample) :=
    pick (store m) draws.

  (** er.py 135-138 *)
  Definition sample_greedy (m : memory) (k : nat) : memory * list sample :=
    let m' := sort_store m in (m', firstn k (store m')).

  (** er.py 113-118; [pw x] is [x ** alpha].  The assertion on the rounded sum
      fails only for an empty memory (sum 0). *)
  Definition rank_weights (pw : Q -> Q) (n : nat) : list Q :=
    map (fun i => pw (1 / inject_Z (Z.of_nat i))%Q) (seq 1 n).
  Definition qsum (l : list Q) : Q := fold_right Qplus 0%Q l.
  Definition calc_priorities (pw : Q -> Q) (m : memory) : option (memory * list Q) :=
    let m' := sort_store m in
    let ws := rank_weights pw (length (store m')) in
    let ps := map (fun w => w / qsum ws)%Q ws in
    match store m' with [] => None | _ => Some (m', ps) end.

  (** er.py 139-143: the indices drawn by [np.random.choice(range(len), p=priors)]. *)
  Definition sample_prior (pw : Q -> Q) (m : memory) (draws : list nat)
    : option (memory * list sample) :=
    match calc_priorities pw m with
    | None => None
    | Some (m', _) => match pick (store m') draws with
                      | None => None
                      | Some l => Some (m', l)
                      end
    end.

  (** er.py 147-161; empty memory: IndexError.  All stored tuples are assumed to
      have the same length, as in every use. *)
  Fixpoint dedupe_x (seen : list X) (l : list sample) : list sample :=
    match l with
    | [] => []
    | a :: r => if existsb (eqX (sx a)) seen then dedupe_x seen r
                else a :: dedupe_x (seen ++ [sx a]) r
    end.
  Definition remove_duplicates (m : memory) : option memory :=
    match store m with
    | [] => None
    | l => Some (mkMem (dedupe_x [] l) (msize m) (next m))
    end.
End ER.
Arguments sample : clear implicits.
Arguments memory : clear implicits.
