(** Model of src/motive/util/benchmark.cpp, as compiled with BENCHMARK_MOTIVE.

    BenchmarkTime is unsigned long long, of 64 bits: arithmetic is modulo 2^64.  Buckets are
    uint16_t.  [None] is a failed assert, an access out of range or a division by zero.
    sqrt, floor and the conversions to and from double are exact here.  The clock, the
    names' bytes and the text around the numbers are left out: a report is the numbers and
    the rows of the histogram. *)
From Verif Require Import RBase Base.
Local Open Scope Z_scope.

Definition two64 : Z := 2 ^ 64.
Definition u64 (x : Z) : Z := x mod two64.

(** benchmark.cpp:67-79 (Average) *)
Definition average (samples : list Z) : option Z :=
  let sum := fold_left (fun s t => u64 (s + t)) samples 0 in
  let count := len samples in
  assert 0 <? count ;; Some (u64 (sum + count / 2) / count).

(** benchmark.cpp:81-97 (StandardDeviation) *)
Definition deviation_sum (samples : list Z) (avg : Z) : Z :=
  fold_left (fun s t => let diff := u64 (t - avg) in u64 (s + u64 (diff * diff))) samples 0.
Definition standard_deviation (samples : list Z) (avg : Z) : option Z :=
  let count := len samples in
  assert 0 <? count ;;
  let deviation_squared := u64 (deviation_sum samples avg + count / 2) / count in
  Some (Rfloor (sqrt (IZR deviation_squared) + 1 / 2)%R).

(** benchmark.cpp:99-109 (MinMax) *)
Definition min_max (samples : list Z) : Z * Z :=
  fold_left (fun m t => (Z.min (fst m) t, Z.max (snd m) t)) samples (two64 - 1, 0).

(** benchmark.cpp:131-136: the loop of Histogram. *)
Definition bucket_of (min max num_buckets t : Z) : Z := u64 (u64 (num_buckets - 1) * u64 (t - min)) / u64 (max - min).
Fixpoint fill_buckets (min max num_buckets : Z) (samples buckets : list Z) : option (list Z) :=
  match samples with
  | [] => Some buckets
  | t :: l =>
      let bucket := bucket_of min max num_buckets t in
      assert bucket <? num_buckets ;;
      c <- getz buckets bucket ;;
      b <- setz buckets bucket ((c + 1) mod 65536) ;;
      fill_buckets min max num_buckets l b
  end.
(** benchmark.cpp:111-138 (Histogram); [num_buckets] is the capacity of the vector. *)
Definition histogram (min max num_buckets : Z) (samples : list Z) : option (list Z) :=
  let buckets := repeat 0 (Z.to_nat num_buckets) in
  if u64 (max - min) =? 0 then setz buckets 0 (len samples mod 65536)
  else fill_buckets min max num_buckets samples buckets.

(** benchmark.cpp:160-165: the biggest bucket, from [j]. *)
Fixpoint biggest_from (fuel : nat) (j biggest : Z) (buckets : list Z) : option Z :=
  match fuel with
  | 0%nat => Some biggest
  | Datatypes.S f => b <- getz buckets j ;; biggest_from f (j + 1) (Z.max biggest b) buckets
  end.
Definition biggest_bucket (width : Z) (buckets : list Z) : option Z := biggest_from (Z.to_nat (width - 1)) 1 0 buckets.
(** benchmark.cpp:167-175: row [i] of the histogram; true is '#'.  Unsigned ints of 32 bits. *)
Definition bucket_cutoff (height i biggest : Z) : Z := ((height - i - 1) * biggest) mod 2 ^ 32 / height.
Definition row (width height biggest : Z) (buckets : list Z) (i : Z) : list bool :=
  map (fun b => bucket_cutoff height i biggest <? b) (firstn (Z.to_nat width) buckets).
Definition picture (width height : Z) (buckets : list Z) : option (list (list bool)) :=
  biggest <- biggest_bucket width buckets ;;
  Some (map (fun i => row width height biggest buckets (Z.of_nat i)) (seq 0 (Z.to_nat height))).

(** benchmark.cpp:38-39 (the default sizes), 140-177 (Statistics): average, least, greatest,
    standard deviation, histogram.  [capacity] is that of a vector made with [width] elements. *)
Record report := Report { rp_average : Z; rp_min : Z; rp_max : Z; rp_deviation : Z; rp_rows : list (list bool) }.
Definition kWidth : Z := 80.
Definition kHeight : Z := 10.
Definition statistics (capacity : Z) (samples : list Z) : option report :=
  let '(min, max) := min_max samples in
  avg <- average samples ;;
  stdev <- standard_deviation samples avg ;;
  buckets <- histogram min max capacity samples ;;
  rows <- picture kWidth kHeight buckets ;;
  Some (Report avg min max stdev rows).

(** benchmark.cpp:180-182 (gTimes): names and samples. *)
Definition times := list (list Z * list Z).
(** benchmark.cpp:191-195 (ClearBenchmarks) *)
Definition clear_benchmarks (g : times) : times := map (fun a => (fst a, [])) g.
(** benchmark.cpp:197-201 (RegisterBenchmark): the id, as an int. *)
Definition register_benchmark (name : list Z) (g : times) : Z * times := (len g, g ++ [(name, [])]).
(** benchmark.cpp:213-218 (~Benchmark); [start] and [end_] are what the clock says. *)
Definition end_benchmark (id start end_ : Z) (g : times) : option times :=
  assert (0 <=? id) && (id <? len g) ;;
  a <- getz g id ;; setz g id (fst a, snd a ++ [u64 (end_ - start)]).
(** benchmark.cpp:203-211 (OutputBenchmarks): the names and reports in order. *)
Fixpoint output_benchmarks (capacity : Z) (g : times) : option (list (list Z * report)) :=
  match g with
  | [] => Some []
  | (name, samples) :: l =>
      r <- output_benchmarks capacity l ;;
      if 0 <? len samples then s <- statistics capacity samples ;; Some ((name, s) :: r) else Some r
  end.
