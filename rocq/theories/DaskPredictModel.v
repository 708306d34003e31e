(* Model of /repo/africanus/rime/dask_predict.py *)
From Verif Require Import Prelude CRing PredictModel.
Open Scope nat_scope.

(* ------------------------------------------------------------------ *)
(* Task graphs.  Dimension names and array names are naturals. *)
Inductive dkey : Type :=
| KFinal (block : list nat)              (* (self.name,) + block *)
| KInter (block : list nat)              (* (int_name,) + block, reduction index first *)
| KIn (name : nat) (block : list nat).   (* a block of an input array *)
Inductive darg : Type :=
| ANone                                  (* the literal None *)
| AKey (k : dkey).                       (* the value computed for / stored under a key *)

(* position of j in l: dim_map = {k: i for i, k in enumerate(out_dims)}; names distinct *)
Fixpoint pos_of (j : nat) (l : list nat) : option nat :=
  match l with
  | [] => None
  | x :: r => if Nat.eqb x j then Some 0 else option_map S (pos_of j r)
  end.

(* dask_predict.py:36-57 _ind_map *)
Fixpoint ind_map (ind : list nat) (out_ind : list nat) (out_dims : list nat)
         (dim_blocks : nat -> option nat) : res (list nat) :=
  match ind with
  | [] => Ok []
  | j :: r =>
      do! x <- match pos_of j out_dims with
               | Some p => Ok (nth p out_ind 0)
               | None => match dim_blocks j with
                         | None => Raise ValueError
                         | Some n => if Nat.eqb n 1 then Ok 0 else Raise ValueError
                         end
               end;
      do! xs <- ind_map r out_ind out_dims dim_blocks;
      Ok (x :: xs)
  end.

(* itertools.product of ranges *)
Fixpoint product (ns : list nat) : list (list nat) :=
  match ns with
  | [] => [[]]
  | n :: r => flat_map (fun i => map (cons i) (product r)) (seq 0 n)
  end.

Fixpoint mapM {A B} (f : A -> res B) (l : list A) : res (list B) :=
  match l with
  | [] => Ok []
  | x :: r => do! y <- f x; do! ys <- mapM f r; Ok (y :: ys)
  end.

Definition nblocks (dim_blocks : nat -> option nat) (d : nat) : nat :=
  match dim_blocks d with Some n => n | None => 0 end.

(* dask_predict.py:120-140: the task of one output block.  An index entry is
   (name, Some dims) for an array, None for a literal None. *)
Definition lr_task (out_dims : list nat) (indices : list (option (nat * list nat)))
           (dim_blocks : nat -> option nat) (feed_index : nat) (out_ind : list nat)
  : res (list darg) :=
  mapM (fun p : nat * option (nat * list nat) =>
          let '(i, e) := p in
          if Nat.eqb i feed_index then
            match out_ind with
            | 0 :: _ => Ok ANone
            | S k :: rest => Ok (AKey (KInter (k :: rest)))
            | [] => Ok ANone                                   (* unreachable: axis is first *)
            end
          else match e with
               | None => Ok ANone
               | Some (name, ind) =>
                   do! b <- ind_map ind out_ind out_dims dim_blocks;
                   Ok (AKey (KIn name b))
               end)
       (combine (seq 0 (length indices)) indices).

(* dask_predict.py:95-151 _dict, with the constructor checks of lines 76-80.
   [dim_blocks] stands for dask's broadcast_dimensions(indices, numblocks). *)
Definition lr_dict (output_indices : list nat) (indices : list (option (nat * list nat)))
           (dim_blocks : nat -> option nat) (feed_index : nat) (axis : nat)
  : res (list (dkey * list darg)) :=
  if existsb (Nat.eqb axis) output_indices then Raise ValueError
  else
    let out_dims := axis :: output_indices in
    let last_block := nblocks dim_blocks axis - 1 in
    mapM (fun out_ind =>
            do! task <- lr_task out_dims indices dim_blocks feed_index out_ind;
            Ok (if Nat.eqb (hd 0 out_ind) last_block
                then KFinal (tl out_ind) else KInter out_ind, task))
         (product (map (nblocks dim_blocks) out_dims)).

(* dask_predict.py:159-169 __len__: the product of the block counts of the output dimensions *)
Definition lr_len (output_indices : list nat) (dim_blocks : nat -> option nat) : nat :=
  fold_right Nat.mul 1 (map (nblocks dim_blocks) output_indices).

(* ------------------------------------------------------------------ *)
(* A dask scheduler: runs any task whose arguments are available; results are stored.
   A schedule is an arbitrary sequence of task keys; picking a task that is not ready, or
   does not exist, does nothing. *)
Section Scheduler.
  Context {V : Type} (func : list (option V) -> V) (dsk : list (dkey * list darg)).
  Definition store : Type := dkey -> option V.

  Definition list_eqb (x y : list nat) : bool := if list_eq_dec Nat.eq_dec x y then true else false.
  Definition key_eqb (a b : dkey) : bool :=
    match a, b with
    | KFinal x, KFinal y | KInter x, KInter y => list_eqb x y
    | KIn n x, KIn m y => Nat.eqb n m && list_eqb x y
    | _, _ => false
    end.
  Fixpoint find_task (l : list (dkey * list darg)) (k : dkey) : option (list darg) :=
    match l with
    | [] => None
    | (k', t) :: r => if key_eqb k' k then Some t else find_task r k
    end.
  Fixpoint args_of (s : store) (l : list darg) : option (list (option V)) :=
    match l with
    | [] => Some []
    | ANone :: r => option_map (cons None) (args_of s r)
    | AKey k :: r => match s k, args_of s r with
                     | Some v, Some vs => Some (Some v :: vs)
                     | _, _ => None
                     end
    end.
  Definition exec (s : store) (k : dkey) : store :=
    match find_task dsk k with
    | Some t => match args_of s t with
                | Some vs => fun k' => if key_eqb k k' then Some (func vs) else s k'
                | None => s
                end
    | None => s
    end.
  Definition execute (inputs : store) (sched : list dkey) : store := fold_left exec sched inputs.
End Scheduler.

(* ------------------------------------------------------------------ *)
Section DaskPredict.
  Context {K : cops}.

  (* chunk sizes of the shared dimensions; the time axis has as many chunks as the rows *)
  Record chunking : Type := { ck_row : list nat; ck_time : list nat; ck_src : list nat; ck_chan : list nat }.
  Definition chunk_off (l : list nat) (i : nat) : nat := list_sum (firstn i l).

  (* blocks of the arrays, as dask slices them *)
  Definition blk_dde (ch : chunking) (sb rb cb : nat) (e : dde_arr K) : dde_arr K :=
    {| d_ndim := d_ndim e; d_src := nth sb (ck_src ch) 0; d_chan := nth cb (ck_chan ch) 0; d_corr := d_corr e;
       d_at := fun s t a f => d_at e (chunk_off (ck_src ch) sb + s) (chunk_off (ck_time ch) rb + t) a
                                   (chunk_off (ck_chan ch) cb + f) |}.
  Definition blk_coh (ch : chunking) (sb rb cb : nat) (x : coh_arr K) : coh_arr K :=
    {| h_ndim := h_ndim x; h_src := nth sb (ck_src ch) 0; h_row := nth rb (ck_row ch) 0;
       h_chan := nth cb (ck_chan ch) 0; h_corr := h_corr x;
       h_at := fun s r f => h_at x (chunk_off (ck_src ch) sb + s) (chunk_off (ck_row ch) rb + r)
                                 (chunk_off (ck_chan ch) cb + f) |}.
  Definition blk_die (ch : chunking) (rb cb : nat) (g : die_arr K) : die_arr K :=
    {| g_ndim := g_ndim g; g_chan := nth cb (ck_chan ch) 0; g_corr := g_corr g;
       g_at := fun t a f => g_at g (chunk_off (ck_time ch) rb + t) a (chunk_off (ck_chan ch) cb + f) |}.
  Definition blk_vis (ch : chunking) (rb cb : nat) (b : vis_arr K) : vis_arr K :=
    {| v_ndim := v_ndim b; v_row := nth rb (ck_row ch) 0; v_chan := nth cb (ck_chan ch) 0; v_corr := v_corr b;
       v_at := fun r f => v_at b (chunk_off (ck_row ch) rb + r) (chunk_off (ck_chan ch) cb + f) |}.
  Definition blk {A} (ch : chunking) (rb : nat) (x : arr A) : arr A :=
    fun r => x (chunk_off (ck_row ch) rb + r).

  (* the values that tasks exchange *)
  Inductive dval : Type :=
  | VTime (n : nat) (t : arr Z)
  | VAnt (t : arr nat)
  | VDde (e : dde_arr K)
  | VCoh (x : coh_arr K)
  | VVis (v : vis_arr K)
  | VErr (e : exn).

  Definition as_dde (v : option dval) := match v with Some (VDde e) => Some e | _ => None end.
  Definition as_coh (v : option dval) := match v with Some (VCoh e) => Some e | _ => None end.
  Definition as_vis (v : option dval) := match v with Some (VVis e) => Some e | _ => None end.

  (* the function of the stream reduction is np_predict_vis itself (206); its arguments in
     this graph are time, ant1, ant2, dde1, coh, dde2, None, base_vis, None *)
  Definition predict_func (args : list (option dval)) : dval :=
    match args with
    | [Some (VTime n t); Some (VAnt a1); Some (VAnt a2); d1; x; d2; None; b; None] =>
        match b with
        | Some (VErr e) => VErr e
        | _ =>
          match predict_vis {| p_nrow := n; p_time := t; p_ant1 := a1; p_ant2 := a2;
                               p_dde1 := as_dde d1; p_coh := as_coh x; p_dde2 := as_dde d2;
                               p_die1 := None; p_bvis := as_vis b; p_die2 := None |} with
          | Ok v => VVis v
          | Raise e => VErr e
          end
        end
    | _ => VErr TypeError
    end.

  (* dimension numbers: row 0, source 1, ant 2, chan 3, corr-0 4, corr-1 5;
     array names: time 0, antenna1 1, antenna2 2, dde1 3, coh 4, dde2 5 *)
  Definition cdims (ndim_corr : nat) : list nat := seq 4 ndim_corr.
  Definition lr_indices (nc : nat) (a : predict_in K) : list (option (nat * list nat)) :=
    [Some (0, [0]); Some (1, [0]); Some (2, [0]);
     (if have (p_dde1 a) then Some (3, [1; 0; 2; 3] ++ cdims nc) else None);
     (if have (p_coh a) then Some (4, [1; 0; 3] ++ cdims nc) else None);
     (if have (p_dde2 a) then Some (5, [1; 0; 2; 3] ++ cdims nc) else None);
     None; None; None].
  (* one block in the antenna dimension (checked by predict_vis, 369-376) and in the
     correlation dimensions *)
  Definition lr_dim_blocks (ch : chunking) (d : nat) : option nat :=
    match d with
    | 0 => Some (length (ck_row ch)) | 1 => Some (length (ck_src ch)) | 2 => Some 1
    | 3 => Some (length (ck_chan ch)) | _ => Some 1
    end.
  Definition ncorr_dims (a : predict_in K) : nat :=
    match p_dde1 a, p_coh a with
    | Some e, _ => d_ndim e - 4
    | None, Some x => h_ndim x - 3
    | None, None => 0
    end.
  (* dask_predict.py:172-222 linear_reduction: the graph *)
  Definition linear_graph (ch : chunking) (a : predict_in K) : res (list (dkey * list darg)) :=
    lr_dict ([0; 3] ++ cdims (ncorr_dims a)) (lr_indices (ncorr_dims a) a) (lr_dim_blocks ch) 7 1.
  (* the blocks of the input arrays *)
  Definition input_store (ch : chunking) (a : predict_in K) : @store dval := fun k =>
    match k with
    | KIn 0 [rb] => Some (VTime (nth rb (ck_row ch) 0) (blk ch rb (p_time a)))
    | KIn 1 [rb] => Some (VAnt (blk ch rb (p_ant1 a)))
    | KIn 2 [rb] => Some (VAnt (blk ch rb (p_ant2 a)))
    | KIn 3 (sb :: rb :: 0 :: cb :: _) => option_map (fun e => VDde (blk_dde ch sb rb cb e)) (p_dde1 a)
    | KIn 4 (sb :: rb :: cb :: _) => option_map (fun e => VCoh (blk_coh ch sb rb cb e)) (p_coh a)
    | KIn 5 (sb :: rb :: 0 :: cb :: _) => option_map (fun e => VDde (blk_dde ch sb rb cb e)) (p_dde2 a)
    | _ => None
    end.

  (* dask_predict.py:225-249 and 266-300: the coherencies of one (source, row, chan) block *)
  Definition coh_block (ch : chunking) (a : predict_in K) (sb rb cb : nat) : res (vis_arr K) :=
    predict_vis {| p_nrow := nth rb (ck_row ch) 0; p_time := blk ch rb (p_time a);
                   p_ant1 := blk ch rb (p_ant1 a); p_ant2 := blk ch rb (p_ant2 a);
                   p_dde1 := option_map (blk_dde ch sb rb cb) (p_dde1 a);
                   p_coh := option_map (blk_coh ch sb rb cb) (p_coh a);
                   p_dde2 := option_map (blk_dde ch sb rb cb) (p_dde2 a);
                   p_die1 := None; p_bvis := None; p_die2 := None |}.

  (* dask_predict.py:302 coherencies.sum(axis=0): dask adds the blocks in some tree *)
  Inductive rtree : Type := Leaf (i : nat) | Node (l r : rtree).
  Fixpoint leaves (t : rtree) : list nat :=
    match t with Leaf i => [i] | Node l r => leaves l ++ leaves r end.
  Definition add_vis (x y : vis_arr K) : vis_arr K :=
    {| v_ndim := v_ndim x; v_row := v_row x; v_chan := v_chan x; v_corr := v_corr x;
       v_at := fun r f i j => cadd (v_at x r f i j) (v_at y r f i j) |}.
  Fixpoint tree_sum (ch : chunking) (a : predict_in K) (rb cb : nat) (t : rtree) : res (vis_arr K) :=
    match t with
    | Leaf sb => coh_block ch a sb rb cb
    | Node l r => do! x <- tree_sum ch a rb cb l; do! y <- tree_sum ch a rb cb r; Ok (add_vis x y)
    end.

  (* dask_predict.py:252-263 and 305-351: direction independent effects of one block *)
  Definition dies_block (ch : chunking) (a : predict_in K) (bvis : option (vis_arr K)) (rb cb : nat)
    : res (vis_arr K) :=
    predict_vis {| p_nrow := nth rb (ck_row ch) 0; p_time := blk ch rb (p_time a);
                   p_ant1 := blk ch rb (p_ant1 a); p_ant2 := blk ch rb (p_ant2 a);
                   p_dde1 := None; p_coh := None; p_dde2 := None;
                   p_die1 := option_map (blk_die ch rb cb) (p_die1 a);
                   p_bvis := bvis;
                   p_die2 := option_map (blk_die ch rb cb) (p_die2 a) |}.

  (* dask_predict.py:405-455: one output block, given the summed coherencies of that block
     (None when there are neither direction dependent terms nor coherencies).
     np.result_type of no arrays raises ValueError; base_vis is not among the arrays of
     line 406. *)
  Definition finish_block (ch : chunking) (a : predict_in K) (sum_coh : option (vis_arr K)) (rb cb : nat)
    : res (vis_arr K) :=
    if negb (have (p_dde1 a) || have (p_coh a) || have (p_dde2 a) || have (p_die1 a) || have (p_die2 a))
    then Raise ValueError                                                     (* 407 *)
    else
      let have_dies := have (p_die1 a) && have (p_die2 a) in
      match sum_coh, p_bvis a with
      | Some s, None => if have_dies then dies_block ch a (Some s) rb cb else Ok s
      | Some s, Some b => dies_block ch a (Some (add_vis (blk_vis ch rb cb b) s)) rb cb
      | None, Some b => dies_block ch a (Some (blk_vis ch rb cb b)) rb cb
      | None, None => dies_block ch a None rb cb
      end.

  (* dask_predict.py:369-385 and 388-403: the chunk checks of a pair of terms *)
  Definition chunk_check (row_chunks : list nat) (d1 d2 : option (list (list nat))) (ant tim : nat) : res unit :=
    match d1, d2 with
    | Some c1, Some c2 =>
        let a1 := nth ant c1 [] in let a2 := nth ant c2 [] in
        if negb (Nat.eqb (list_sum a1) (hd 0 a1)) then Raise ValueError
        else if negb (Nat.eqb (list_sum a2) (hd 0 a2)) then Raise ValueError
        else if negb (if list_eq_dec (list_eq_dec Nat.eq_dec) c1 c2 then true else false) then Raise ValueError
        else if negb (Nat.eqb (length (nth tim c1 [])) (length row_chunks)) then Raise ValueError
        else Ok tt
    | _, _ => Ok tt
    end.
  (* dask_predict.py:369-403.  Chunks of dde: source, time, ant, chan, corr; of die: time, ant, ... *)
  Definition dask_checks (row_chunks : list nat) (dde1 dde2 : option (list (list nat)))
             (die1 die2 : option (list (list nat))) : res unit :=
    do! _ <- chunk_check row_chunks dde1 dde2 2 1;
    chunk_check row_chunks die1 die2 1 0.
End DaskPredict.
