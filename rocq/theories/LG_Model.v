(** Model of the logger (neorl/rl/baselines/shared/logger.py). *)
From Coq Require Import Ascii String List Arith ZArith QArith Bool.
Import ListNotations.
Open Scope nat_scope.

(** Strings are lists of characters. *)
Definition text := list ascii.
Definition t (s : string) : text := list_ascii_of_string s.
Definition text_eqb (a b : text) : bool := if list_eq_dec ascii_dec a b then true else false.
(** The order of strings in Python: by code points. *)
Fixpoint text_leb (a b : text) : bool :=
  match a, b with
  | [], _ => true
  | _ :: _, [] => false
  | x :: a', y :: b' => if nat_of_ascii x <? nat_of_ascii y then true else if nat_of_ascii x =? nat_of_ascii y then text_leb a' b' else false
  end.
Definition comma : ascii := ",".
Definition newline : ascii := "010".

(** ** Values (a Python float; a string; None; a numpy array or scalar; a list, nested like the array it was made of) and dictionaries in the order of insertion *)
Inductive val := Num (x : Q) | Txt (s : text) | Nothing | Arr (shape : list nat) (data : list Q) | Lst (shape : list nat) (data : list Q).
Definition dict (B : Type) := list (text * B).
Fixpoint get {B} (k : text) (d : dict B) : option B := match d with [] => None | (j, v) :: r => if text_eqb k j then Some v else get k r end.
Fixpoint put {B} (k : text) (v : B) (d : dict B) : dict B :=
  match d with [] => [(k, v)] | (j, w) :: r => if text_eqb k j then (j, v) :: r else (j, w) :: put k v r end.
Definition has {B} (k : text) (d : dict B) : bool := match get k d with Some _ => true | None => false end.

(** ** Logger (457-567) *)
(** a * c / (c + 1) + x / (c + 1) (501). *)
Definition average (c : nat) (a x : Q) : Q := (a * inject_Z (Z.of_nat c) / inject_Z (Z.of_nat c + 1) + x / inject_Z (Z.of_nat c + 1))%Q.
(** Arithmetic on values: strings, None and lists raise; arrays element by element (arrays of two different shapes raise here, numpy would broadcast some). *)
Fixpoint map2 (f : Q -> Q -> Q) (a b : list Q) : list Q := match a, b with x :: a', y :: b' => f x y :: map2 f a' b' | _, _ => [] end.
Definition lift2 (f : Q -> Q -> Q) (a b : val) : option val :=
  match a, b with
  | Num x, Num y => Some (Num (f x y))
  | Num x, Arr s d => Some (Arr s (map (f x) d))
  | Arr s d, Num y => Some (Arr s (map (fun x => f x y) d))
  | Arr s d, Arr s' d' => if list_eq_dec Nat.eq_dec s s' then Some (Arr s (map2 f d d')) else None
  | _, _ => None
  end.
Definition DISABLED : Z := 50.

Section Logger.
  (** The outputs together: writekvs of each in turn (510-512) changes them, may change the dictionary, and may raise (true). *)
  Context {W : Type}.
  Variable write : W -> dict val -> W * dict val * bool.
  Record logger := Lg { vals : dict val; cnts : dict nat; level : Z; outs : W }.
  (** self.name2val[key], self.name2cnt[key]: defaultdicts of 0. *)
  Definition val_of (k : text) (l : logger) : val := match get k (vals l) with Some v => v | None => Num 0 end.
  Definition cnt_of (k : text) (l : logger) : nat := match get k (cnts l) with Some c => c | None => 0 end.
  Definition touch (k : text) (l : logger) : dict val := if has k (vals l) then vals l else vals l ++ [(k, Num 0)].
  (** logkv (479-488). *)
  Definition logkv (k : text) (v : val) (l : logger) : logger := Lg (put k v (vals l)) (cnts l) (level l) (outs l).
  (** logkv_mean (490-502); the second part: whether it raises. *)
  Definition logkv_mean (k : text) (v : val) (l : logger) : logger * bool :=
    match v with
    | Nothing => (Lg (put k Nothing (vals l)) (cnts l) (level l) (outs l), false)
    | _ =>
        match lift2 (average (cnt_of k l)) (val_of k l) v with
        | Some w => (Lg (put k w (vals l)) (put k (1 + cnt_of k l) (cnts l)) (level l) (outs l), false)
        | None => (Lg (touch k l) (cnts l) (level l) (outs l), true)
        end
    end.
  (** The end of a ProfileKV block (430-431) that took dt. *)
  Definition profile (k : text) (dt : Q) (l : logger) : logger * bool :=
    match lift2 Qplus (val_of k l) (Num dt) with
    | Some w => (Lg (put k w (vals l)) (cnts l) (level l) (outs l), false)
    | None => (Lg (touch k l) (cnts l) (level l) (outs l), true)
    end.
  (** dumpkvs (504-514). *)
  Definition dumpkvs (l : logger) : logger * bool :=
    if (level l =? DISABLED)%Z then (l, false)
    else match write (outs l) (vals l) with
         | (o, kvs, true) => (Lg kvs (cnts l) (level l) o, true)
         | (o, _, false) => (Lg [] [] (level l) o, false)
         end.
  Definition set_level (z : Z) (l : logger) : logger := Lg (vals l) (cnts l) z (outs l).
  Inductive op := Log (k : text) (v : val) | Mean (k : text) (v : val) | Profile (name : text) (dt : Q) | Dump | Level (z : Z).
  Definition do (o : op) (l : logger) : logger * bool :=
    match o with
    | Log k v => (logkv k v l, false)
    | Mean k v => logkv_mean k v l
    | Profile name dt => profile (t "wait_" ++ name) dt l
    | Dump => dumpkvs l
    | Level z => (set_level z l, false)
    end.
  (** A history; the caller catches what is raised. *)
  Fixpoint history (ops : list op) (l : logger) : logger := match ops with [] => l | o :: r => history r (fst (do o l)) end.
End Logger.

(** ** CSVOutputFormat (151-192) *)
Section Csv.
  (** str(value); the order in which a set of new keys is listed (164). *)
  Variable shown : val -> text.
  Variable order : list text -> list text.
  Record csv := Csv { file : text; pos : nat; keys : list text }.
  Definition csv0 : csv := Csv [] 0 [].
  (** readlines(). *)
  Fixpoint readlines (s : text) : list text :=
    match s with
    | [] => []
    | c :: r => if ascii_dec c newline then [c] :: readlines r else match readlines r with [] => [[c]] | l :: ls => (c :: l) :: ls end
    end.
  (** Writing w at a position over what is there. *)
  Definition overwrite (p : nat) (w f : text) : text := firstn p f ++ w ++ skipn (p + length w) f.
  (** The pieces with commas between (170-174, 179-185). *)
  Fixpoint join (l : list text) : text := match l with [] => [] | [a] => a | a :: r => a ++ comma :: join r end.
  Definition mem (k : text) (l : list text) : bool := existsb (text_eqb k) l.
  Definition csv_cell (kvs : dict val) (k : text) : text := match get k kvs with None => [] | Some Nothing => [] | Some v => shown v end.
  Definition csv_write (c : csv) (kvs : dict val) : csv :=
    let extra := order (filter (fun k => negb (mem k (keys c))) (map fst kvs)) in
    let c' :=
      match extra with
      | [] => c
      | _ =>
          let ks := keys c ++ extra in
          let body := (join ks ++ [newline]) ++ flat_map (fun l => removelast l ++ repeat comma (length extra) ++ [newline]) (tl (readlines (file c))) in
          Csv (overwrite 0 body (file c)) (length body) ks
      end in
    let row := join (map (csv_cell kvs) (keys c')) ++ [newline] in
    Csv (overwrite (pos c') row (file c')) (pos c' + length row) (keys c').
End Csv.

(** ** HumanOutputFormat (53-121) *)
Section Human.
  (** str(value), '%-8.3g' % value. *)
  Variable shown : val -> text.
  Variable general : Q -> text.
  (** sorted, by the keys, which differ (71, 89). *)
  Fixpoint insert {B} (p : text * B) (l : dict B) : dict B := match l with [] => [p] | q :: r => if text_leb (fst p) (fst q) then p :: l else q :: insert p r end.
  Definition sorted {B} (l : dict B) : dict B := fold_right insert [] l.
  (** _truncate (102-104). *)
  Definition truncate (s : text) : text := if 23 <? length s then firstn 20 s ++ t "..." else s.
  Definition valstr (v : val) : text := match v with Num x => general x | _ => shown v end.
  Definition key2str (kvs : dict val) : dict text := fold_left (fun d p => put (truncate (fst p)) (truncate (valstr (snd p))) d) (sorted kvs) [].
  Definition width (l : list text) : nat := fold_right Nat.max 0 (map (@length ascii) l).
  Definition human_line (kw vw : nat) (p : text * text) : text :=
    t "| " ++ fst p ++ repeat " "%char (kw - length (fst p)) ++ t " | " ++ snd p ++ repeat " "%char (vw - length (snd p)) ++ t " |".
  (** The lines that are written; none for an empty dictionary. *)
  Definition human_lines (kvs : dict val) : list text :=
    let d := key2str kvs in
    match d with
    | [] => []
    | _ => let kw := width (map fst d) in let vw := width (map snd d) in
           let dashes := repeat "-"%char (kw + vw + 7) in
           [dashes] ++ map (human_line kw vw) (sorted d) ++ [dashes]
    end.
End Human.

(** ** JSONOutputFormat (123-148) *)
(** What happens to one value of the dictionary (133-140); None: float raises. *)
Definition json_change (v : val) : option val :=
  match v with
  | Arr [] [x] => Some (Num x)
  | Arr (1 :: _) [x] => Some (Num x)
  | Arr (1 :: _) _ => None
  | Arr s d => Some (Lst s d)
  | _ => Some v
  end.
(** The loop over the sorted keys (133-140) changes the logger's own dictionary. *)
Fixpoint json_loop (l kvs : dict val) : dict val * bool :=
  match l with [] => (kvs, false) | (k, v) :: r => match json_change v with None => (kvs, true) | Some w => json_loop r (put k w kvs) end end.

(** ** The outputs together *)
Section Outputs.
  Variables (shown : val -> text) (general : Q -> text) (order : list text -> list text).
  (** float() of a string; None: ValueError. *)
  Variable number : text -> option Q.
  (** valid_float_value and summary_val (195-215): outer None: raises; inner None: no number, left out. *)
  Definition tb_value (v : val) : option (option Q) :=
    match v with
    | Num x => Some (Some x)
    | Txt s => match number s with Some x => Some (Some x) | None => None end
    | Arr _ [x] => Some (Some x)
    | Nothing | Arr _ _ | Lst _ _ => Some None
    end.
  Fixpoint tb_values (kvs : dict val) : option (dict Q) :=
    match kvs with
    | [] => Some []
    | (k, v) :: r => match tb_value v, tb_values r with
                     | Some (Some x), Some d => Some ((k, x) :: d)
                     | Some None, Some d => Some d
                     | _, _ => None
                     end
    end.
  (** A text file of lines; the dictionaries of a JSON file; a CSV file; the events with their steps (218-249). *)
  Inductive output := Human (lines : list text) | Json (dicts : list (dict val)) | CsvOut (c : csv) | Tb (events : list (nat * dict Q)).
  Definition write_one (o : output) (kvs : dict val) : output * dict val * bool :=
    match o with
    | Human lines => (Human (lines ++ human_lines shown general kvs), kvs, false)
    | Json dicts => match json_loop (sorted kvs) kvs with (d, true) => (o, d, true) | (d, false) => (Json (dicts ++ [d]), d, false) end
    | CsvOut c => (CsvOut (csv_write shown order c kvs), kvs, false)
    | Tb events => match tb_values kvs with Some d => (Tb (events ++ [(1 + length events, d)]), kvs, false) | None => (o, kvs, true) end
    end.
  (** dumpkvs (510-512). *)
  Fixpoint write_all (os : list output) (kvs : dict val) : list output * dict val * bool :=
    match os with
    | [] => ([], kvs, false)
    | o :: r =>
        match write_one o kvs with
        | (o', d, true) => (o' :: r, d, true)
        | (o', d, false) => let '(r', d', b) := write_all r d in (o' :: r', d', b)
        end
    end.
End Outputs.
(** ** configure, reset, ScopedConfigure (572-635): loggers are numbers, 0 is Logger.DEFAULT *)
Record world := World { current : nat; fresh : nat; opened : list nat }.
Inductive cmd := Configure | Reset | Scope (body : list cmd).
Definition close (n : nat) (l : list nat) : list nat := filter (fun m => negb (m =? n)) l.
Definition configure (w : world) : world := World (fresh w) (1 + fresh w) (fresh w :: opened w).
Definition reset (w : world) : world := if current w =? 0 then w else World 0 (fresh w) (close (current w) (opened w)).
Fixpoint exec (c : cmd) (w : world) : world :=
  match c with
  | Configure => configure w
  | Reset => reset w
  | Scope body =>
      let fix all (l : list cmd) (w : world) : world := match l with [] => w | c :: r => all r (exec c w) end in
      let w' := all body (configure w) in
      World (current w) (fresh w') (close (current w') (opened w'))
  end.
