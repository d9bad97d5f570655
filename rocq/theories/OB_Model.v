(** Model of how the observations of several environments become one: the buffers of DummyVecEnv
    (neorl/rl/baselines/shared/vec_env/dummy_vec_env.py:22-34, 59-64, 88-96 with vec_env/util.py) and _flatten_obs of
    SubprocVecEnv (vec_env/subproc_vec_env.py:178-202).

    An array is its shape with its numbers in order.  The spaces are boxes, dictionaries and tuples of boxes. *)
From Coq Require Import String List Arith QArith Bool.
Import ListNotations.
Open Scope list_scope. Open Scope nat_scope.

Record arr := Arr { shape : list nat; data : list Q }.
Definition size (s : list nat) : nat := fold_right Nat.mul 1 s.
Definition shape_eqb (a b : list nat) : bool := if list_eq_dec Nat.eq_dec a b then true else false.
(** Keys: None, numbers, names. *)
Inductive key := KNone | KNum (i : nat) | KName (s : string).
Definition key_eqb (a b : key) : bool :=
  match a, b with KNone, KNone => true | KNum i, KNum j => i =? j | KName s, KName u => String.eqb s u | _, _ => false end.
Fixpoint kget {V} (k : key) (d : list (key * V)) : option V := match d with [] => None | (j, v) :: r => if key_eqb k j then Some v else kget k r end.
(** An observation of one environment; the result for all. *)
Inductive obs := OArr (a : arr) | ODict (d : list (string * arr)) | OTup (l : list arr).
Definition dtype := nat.
(** A box: shape and dtype. *)
Definition box := (list nat * dtype)%type.
Inductive space := SBox (b : box) | SDict (d : list (string * box)) | STup (l : list box).
(** Results of all elements, None if one has none. *)
Fixpoint all_some {A} (l : list (option A)) : option (list A) :=
  match l with [] => Some [] | Some a :: r => option_map (cons a) (all_some r) | None :: _ => None end.

(** ** DummyVecEnv *)
(** obs_space_info (util.py:43-73). *)
Fixpoint numbered (i : nat) (l : list box) : list (key * box) := match l with [] => [] | b :: r => (KNum i, b) :: numbered (S i) r end.
Definition info (s : space) : list (key * box) :=
  match s with SBox b => [(KNone, b)] | SDict d => map (fun p => (KName (fst p), snd p)) d | STup l => numbered 0 l end.
(** A buffer: the box and the row of each environment; zeros at first (dummy_vec_env.py:29-31). *)
Definition buffer := (box * list (list Q))%type.
Definition buffers (s : space) (n : nat) : list (key * buffer) := map (fun p => (fst p, (snd p, repeat (repeat 0%Q (size (fst (snd p)))) n))) (info s).

Section Cast.
(** The conversion of a number to a dtype. *)
Variable cast : dtype -> Q -> Q.
(** numpy broadcasting of an array of shape [v] to the shape [t]: dimensions of 1 are repeated, missing ones in front count as 1.
    [None]: raises ValueError. *)
Fixpoint chunks (k len : nat) (d : list Q) : list (list Q) := match k with 0 => [] | S k' => firstn len d :: chunks k' len (skipn len d) end.
Fixpoint broadcast (v t : list nat) (d : list Q) : option (list Q) :=
  match v, t with
  | [], [] => Some d
  | a :: v', b :: t' =>
      if a =? b then option_map (@List.concat Q) (all_some (map (broadcast v' t') (chunks a (size v') d)))
      else if a =? 1 then option_map (fun x => List.concat (repeat x b)) (broadcast v' t' d)
      else None
  | _, _ => None
  end.
Fixpoint drop_ones (k : nat) (v : list nat) : option (list nat) := match k with 0 => Some v | S k' => match v with 1 :: r => drop_ones k' r | _ => None end end.
(** buf[i] = a: more dimensions than the buffer are allowed if they are 1. *)
Definition assign (t : list nat) (a : arr) : option (list Q) :=
  let v := shape a in
  if length v <=? length t then broadcast (repeat 1 (length t - length v) ++ v) t (data a)
  else match drop_ones (length v - length t) v with Some v' => broadcast v' t (data a) | None => None end.
(** obs[key], or obs (dummy_vec_env.py:88-93).  A Dict or Tuple observation for a plain box, and another kind than the space, raise. *)
Definition part (k : key) (o : obs) : option arr :=
  match k, o with
  | KNone, OArr a => Some a
  | KNum i, OTup l => nth_error l i
  | KName s, ODict d => match find (fun p => String.eqb s (fst p)) d with Some p => Some (snd p) | None => None end
  | _, _ => None
  end.
Fixpoint put {V} (i : nat) (v : V) (l : list V) : list V := match l, i with [], _ => [] | _ :: r, 0 => v :: r | x :: r, S j => x :: put j v r end.
(** _save_obs (88-93). *)
Fixpoint save_obs (i : nat) (o : obs) (bufs : list (key * buffer)) : option (list (key * buffer)) :=
  match bufs with
  | [] => Some []
  | (k, (b, rows)) :: r =>
      match part k o with
      | None => None
      | Some a => match assign (fst b) a, save_obs i o r with Some d, Some r' => Some ((k, (b, put i (map (cast (snd b)) d) rows)) :: r') | _, _ => None end
      end
  end.
Fixpoint save_all (i : nat) (os : list obs) (bufs : list (key * buffer)) : option (list (key * buffer)) :=
  match os with [] => Some bufs | o :: r => match save_obs i o bufs with Some b => save_all (S i) r b | None => None end end.
(** dict_to_obs of the copied buffers (95-96; util.py:22-41). *)
Definition array_of (b : buffer) : arr := Arr (length (snd b) :: fst (fst b)) (List.concat (snd b)).
Definition dict_to_obs (s : space) (bufs : list (key * buffer)) : option obs :=
  match s with
  | SBox _ => option_map (fun b => OArr (array_of b)) (kget KNone bufs)
  | SDict d => option_map ODict (all_some (map (fun p => option_map (fun b => (fst p, array_of b)) (kget (KName (fst p)) bufs)) d))
  | STup l => option_map OTup (all_some (map (fun i => option_map array_of (kget (KNum i) bufs)) (seq 0 (length l))))
  end.
(** reset, and the observations of step_wait: one for each environment. *)
Definition dummy_obs (s : space) (os : list obs) : option obs :=
  match save_all 0 os (buffers s (length os)) with Some b => dict_to_obs s b | None => None end.
(** What is kept for the next step: the buffers.  [dummy_next]: the observation after a second round. *)
Definition dummy_next (s : space) (bufs : list (key * buffer)) (os : list obs) : option obs :=
  match save_all 0 os bufs with Some b => dict_to_obs s b | None => None end.
End Cast.

(** ** SubprocVecEnv *)
(** np.stack: one array at least, all of one shape. *)
Definition stack (l : list arr) : option arr :=
  match l with
  | [] => None
  | a :: _ => if forallb (fun b => shape_eqb (shape b) (shape a)) l then Some (Arr (length l :: shape a) (List.concat (map data l))) else None
  end.
(** _flatten_obs (178-202). *)
Definition flatten_obs (s : space) (os : list obs) : option obs :=
  match os with
  | [] => None
  | _ =>
      match s with
      | SBox _ => match all_some (map (part KNone) os) with Some l => option_map OArr (stack l) | None => None end
      | SDict d => option_map ODict (all_some (map (fun p => match all_some (map (part (KName (fst p))) os) with
                                                            | Some l => option_map (pair (fst p)) (stack l) | None => None end) d))
      | STup l => option_map OTup (all_some (map (fun i => match all_some (map (part (KNum i)) os) with Some l => stack l | None => None end) (seq 0 (length l))))
      end
  end.
