(** The layers of policy networks from the parameters net_arch and layers, and the registry of policies:
    mlp_extractor, FeedForwardPolicy, LstmPolicy, get_policy_from_name and register_policy
    (neorl/rl/baselines/shared/policies.py:32-93, 167-183, 404-504, 542-572, 708-756).
    A network is a term; weights, activations and the heads on top are left out. *)
From Coq Require Import String List Arith Bool Lia.
Import ListNotations.
Open Scope string_scope. Open Scope list_scope. Open Scope nat_scope.

(** An element of a list of layer sizes: an int, the text 'lstm', None, or anything else.  Booleans are ints in
    Python; sizes are not negative. *)
Inductive item := IInt (n : nat) | ILstm | INone | IBad.
(** A value in the dict: a list, or anything else. *)
Inductive dval := DList (l : list item) | DBad.
(** An element of net_arch: an int, the text 'lstm', a dict, or anything else. *)
Inductive arch := AInt (n : nat) | ALstm | ADict (d : list (string * dval)) | ABad.
(** The scope of a layer: "shared_fc{}", "pi_fc{}" and "vf_fc{}" with its number. *)
Inductive kind := Shared | Pi | Vf.
(** A network: what it gets (the flat observation, or the features of the CNN), fully connected layers with the
    activation, and the LSTM with its number of cells. *)
Inductive net := Flat | Features | Dense (k : kind) (i : nat) (units : nat) (below : net) | Lstm (cells : nat) (below : net).
Inductive error := AssertionError | ValueError | NotImplementedError | OtherError.
Inductive outcome (A : Type) := Returns (x : A) | Raises (e : error).
Arguments Returns {A}. Arguments Raises {A}.

(** layer['pi'], layer['vf'] (70-76): None if the key is not there. *)
Fixpoint dget (k : string) (d : list (string * dval)) : option dval := match d with [] => None | (j, v) :: r => if String.eqb k j then Some v else dget k r end.
(** The lists of the dict, pi first; a value that is not a list raises. *)
Definition branch (k : string) (d : list (string * dval)) : option (list item) :=
  match dget k d with None => Some [] | Some (DList l) => Some l | Some DBad => None end.
Definition branches (d : list (string * dval)) : option (list item * list item) :=
  match branch "pi" d with None => None | Some p => match branch "vf" d with None => None | Some v => Some (p, v) end end.

(** The loop over net_arch (62-77), from number idx: the shared network and the lists of the first dict. *)
Fixpoint shared_loop (idx : nat) (latent : net) (a : list arch) : outcome (net * (list item * list item)) :=
  match a with
  | [] => Returns (latent, ([], []))
  | AInt n :: r => shared_loop (S idx) (Dense Shared idx n latent) r
  | ADict d :: _ => match branches d with Some pv => Returns (latent, pv) | None => Raises AssertionError end
  | _ :: _ => Raises AssertionError
  end.
(** One layer of a branch (85-91): nothing for None. *)
Definition layer (k : kind) (idx : nat) (it : item) (latent : net) : option net :=
  match it with IInt n => Some (Dense k idx n latent) | INone => Some latent | _ => None end.
(** The loop over zip_longest (82-91). *)
Fixpoint zip_loop (idx : nat) (lp lv : net) (p v : list item) {struct p} : outcome (net * net) :=
  let fix value_loop (idx : nat) (lv : net) (v : list item) : outcome (net * net) :=
    match v with [] => Returns (lp, lv) | y :: v' => match layer Vf idx y lv with None => Raises AssertionError | Some lv' => value_loop (S idx) lv' v' end end in
  match p, v with
  | [], _ => value_loop idx lv v
  | x :: p', [] => match layer Pi idx x lp with None => Raises AssertionError | Some lp' => zip_loop (S idx) lp' lv p' [] end
  | x :: p', y :: v' =>
      match layer Pi idx x lp with
      | None => Raises AssertionError
      | Some lp' => match layer Vf idx y lv with None => Raises AssertionError | Some lv' => zip_loop (S idx) lp' lv' p' v' end
      end
  end.
(** mlp_extractor (32-93): the networks before the policy and before the value. *)
Definition mlp_extractor (flat : net) (a : list arch) : outcome (net * net) :=
  match shared_loop 0 flat a with Raises e => Raises e | Returns (latent, (p, v)) => zip_loop 0 latent latent p v end.

Inductive extraction := Cnn | Mlp.
(** _kwargs_check (167-183): [extra] is whether there are further keywords. *)
Definition kwargs_check (fe : extraction) (extra : bool) : bool := match fe with Mlp => negb extra | Cnn => true end.
(** layers or the default (557-558, 415-416). *)
Definition default_layers (layers : option (list item)) : list item := match layers with Some l => l | None => [IInt 64; IInt 64] end.
(** FeedForwardPolicy (542-572). *)
Definition feed_forward (fe : extraction) (extra : bool) (layers : option (list item)) (net_arch : option (list arch)) : outcome (net * net) :=
  if kwargs_check fe extra then
    let a := match net_arch with Some a => a | None => [ADict [("vf", DList (default_layers layers)); ("pi", DList (default_layers layers))]] end in
    match fe with Cnn => Returns (Features, Features) | Mlp => mlp_extractor Flat a end
  else Raises ValueError.

(** The layers of the legacy mode of LstmPolicy (425-427): linear raises for anything that is not a size. *)
Fixpoint legacy_loop (i : nat) (latent : net) (l : list item) : outcome net :=
  match l with [] => Returns latent | IInt n :: r => legacy_loop (S i) (Dense Pi i n latent) r | _ :: _ => Raises OtherError end.
(** The loop over net_arch of LstmPolicy (452-476): whether the LSTM is there, too. *)
Fixpoint lstm_loop (n_lstm idx : nat) (constructed : bool) (latent : net) (a : list arch) : outcome (bool * net * (list item * list item)) :=
  match a with
  | [] => Returns (constructed, latent, ([], []))
  | AInt n :: r => lstm_loop n_lstm (S idx) constructed (Dense Shared idx n latent) r
  | ALstm :: r => if constructed then Raises ValueError else lstm_loop n_lstm (S idx) true (Lstm n_lstm latent) r
  | ADict d :: _ => match branches d with Some pv => Returns (constructed, latent, pv) | None => Raises AssertionError end
  | ABad :: _ => Raises AssertionError
  end.
(** One branch of LstmPolicy (478-485, 487-495): None is not an int here. *)
Fixpoint branch_loop (k : kind) (idx : nat) (latent : net) (l : list item) : outcome net :=
  match l with
  | [] => Returns latent
  | IInt n :: r => branch_loop k (S idx) (Dense k idx n latent) r
  | ILstm :: _ => Raises NotImplementedError
  | _ :: _ => Raises AssertionError
  end.
(** LstmPolicy (404-504). *)
Definition lstm_policy (fe : extraction) (extra : bool) (n_lstm : nat) (layers : option (list item)) (net_arch : option (list arch)) : outcome (net * net) :=
  if kwargs_check fe extra then
    match net_arch with
    | None =>
        match (match fe with Cnn => Returns Features | Mlp => legacy_loop 0 Flat (default_layers layers) end) with
        | Returns x => Returns (Lstm n_lstm x, Lstm n_lstm x)
        | Raises e => Raises e
        end
    | Some a =>
        match fe with
        | Cnn => Raises NotImplementedError
        | Mlp =>
            match lstm_loop n_lstm 0 false Flat a with
            | Raises e => Raises e
            | Returns (constructed, latent, (p, v)) =>
                match branch_loop Pi 0 latent p with
                | Raises e => Raises e
                | Returns lp =>
                    match branch_loop Vf 0 latent v with
                    | Raises e => Raises e
                    | Returns lv => if constructed then Returns (lp, lv) else Raises ValueError
                    end
                end
            end
        end
    end
  else Raises ValueError.

(** ** The registry (708-756) *)
Section Registry.
(** Classes; [bases] is BasePolicy.__subclasses__() and [sub] is issubclass. *)
Variables (cls : Type) (cls_eq : cls -> cls -> bool) (bases : list cls) (sub : cls -> cls -> bool).
(** The registry: for every base class the policies by name. *)
Definition registry := list (cls * list (string * cls)).
Fixpoint entry (b : cls) (r : registry) : option (list (string * cls)) := match r with [] => None | (c, m) :: r' => if cls_eq b c then Some m else entry b r' end.
Fixpoint named (n : string) (m : list (string * cls)) : option cls := match m with [] => None | (k, p) :: m' => if String.eqb n k then Some p else named n m' end.
(** get_policy_from_name (720-733). *)
Definition get_policy (r : registry) (b : cls) (n : string) : outcome cls :=
  match entry b r with None => Raises ValueError | Some m => match named n m with None => Raises ValueError | Some p => Returns p end end.
(** d[b] = m *)
Fixpoint set_entry (b : cls) (m : list (string * cls)) (r : registry) : registry :=
  match r with [] => [(b, m)] | (c, x) :: r' => if cls_eq b c then (c, m) :: r' else (c, x) :: set_entry b m r' end.
(** register_policy (736-756): the registry afterwards, and whether it raised. *)
Definition register (n : string) (p : cls) (r : registry) : registry * bool :=
  match find (sub p) bases with
  | None => (r, false)
  | Some b =>
      let r1 := match entry b r with None => set_entry b [] r | Some _ => r end in
      match entry b r1 with
      | None => (r1, false)
      | Some m => match named n m with Some _ => (r1, false) | None => (set_entry b (m ++ [(n, p)]) r1, true) end
      end
  end.
(** Any registrations one after another, each one in a try. *)
Definition register_all (r : registry) (l : list (string * cls)) : registry := fold_left (fun r np => fst (register (fst np) (snd np) r)) l r.
End Registry.
