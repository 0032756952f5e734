-Q theories Verif

theories/Base.v
theories/Target.v
theories/Image.v
theories/Indexing.v
theories/Disparity.v
theories/Lowest.v
theories/Cmd.v
theories/Constraint.v
theories/Labeling.v
theories/Pgm.v
theories/MainProg.v
theories/Concur.v
theories/Gpu.v
theories/MainGpu.v
theories/MainOmp.v
theories/Laws.v
theories/Spec.v
theories/Pgm_spec.v
theories/Main_spec.v
theories/Exact_spec.v
theories/Energy_spec.v
theories/Gpu_spec.v
theories/Omp_spec.v
theories/Base_proofs.v
theories/Samples.v
theories/Indexing_proofs.v
theories/Image_proofs.v
theories/Lex_proofs.v
theories/Number_proofs.v
theories/Read_proofs.v
theories/Forward_proofs.v
theories/Pgm_proofs.v
theories/Target_proofs.v
theories/Disparity_proofs.v
theories/Lowest_proofs.v
theories/Constraint_proofs.v
theories/Solver_proofs.v
theories/Zero_proofs.v
theories/Fetch_proofs.v
theories/Threshold_proofs.v
theories/Label_proofs.v
theories/Safe_proofs.v
theories/Jobs_proofs.v
theories/Sc_proofs.v
theories/Checks.v
theories/Image_witness.v
theories/Graph_proofs.v
theories/Bound_proofs.v
theories/Main_proofs.v
theories/Sort_proofs.v
theories/App_proofs.v
theories/Greedy_proofs.v
theories/Witnesses.v
theories/Main_witness.v
theories/Exact_proofs.v
theories/Exact_witness.v
theories/Energy_proofs.v
theories/Energy_witness.v
theories/Gpu_proofs.v
theories/Gpu_group_proofs.v
theories/Gpu_hang_proofs.v
theories/Gpu_host_proofs.v
theories/Gpu_end_proofs.v
theories/Gpu_facts.v
theories/Schedule.v
theories/Gpu_schedule.v
theories/Device_proofs.v
theories/Device_main_proofs.v
theories/Device_witness.v
theories/Same_proofs.v
theories/Same_witness.v
theories/Omp_proofs.v
theories/Omp_main_proofs.v
theories/Omp_one_proofs.v
theories/Omp_run_proofs.v
theories/Omp_witness.v
theories/Model_tests.v
theories/Lattice_spec.v
theories/Lattice_proofs.v
theories/Again_proofs.v
theories/Row_proofs.v
theories/Row_device_proofs.v
theories/Agree_proofs.v
theories/Agree_witness.v
theories/Lattice_witness.v
theories/Properties_Indexing.v
theories/Properties_Image.v
theories/Properties_Graph.v
theories/Properties_Solver.v
theories/Properties_Threshold.v
theories/Properties_Labeling.v
theories/Properties_Jobs.v
theories/Properties_Pgm.v
theories/Properties_Main.v
theories/Properties_Exact.v
theories/Properties_Energy.v
theories/Properties_Gpu.v
theories/Properties_Same.v
theories/Properties_Omp.v
theories/Properties_Lattice.v
theories/Scale_spec.v
theories/Scale_proofs.v
theories/Scale_witness.v
theories/Properties_Scale.v
theories/Args.v
theories/Sources.v
theories/Args_spec.v
theories/Args_proofs.v
theories/Sources_proofs.v
theories/Args_witness.v
theories/Properties_Args.v
theories/Special_spec.v
theories/Special_proofs.v
theories/Api_proofs.v
theories/Special_witness.v
theories/Properties_Special.v
theories/MainFail.v
theories/Fail_spec.v
theories/Fail_proofs.v
theories/Fail_witness.v
theories/Properties_Fail.v
theories/Runs_spec.v
theories/Runs_proofs.v
theories/Runs_witness.v
theories/Properties_Runs.v
theories/Disk.v
theories/Disk_spec.v
theories/Cut_proofs.v
theories/Disk_proofs.v
theories/Disk_witness.v
theories/Properties_Disk.v
theories/Series_spec.v
theories/Series_proofs.v
theories/Series_witness.v
theories/Properties_Series.v
theories/Console.v
theories/Console_spec.v
theories/Console_proofs.v
theories/Console_text_proofs.v
theories/Console_more_proofs.v
theories/Console_witness.v
theories/Properties_Console.v
theories/Work_spec.v
theories/Work_proofs.v
theories/Properties_Work.v
theories/Across_proofs.v
theories/Levels_spec.v
theories/Levels_proofs.v
theories/Levels_witness.v
theories/Properties_Levels.v
theories/Crop_spec.v
theories/Crop_proofs.v
theories/Crop_witness.v
theories/Properties_Crop.v
theories/Stiff_spec.v
theories/Stiff_proofs.v
theories/Stiff_witness.v
theories/Properties_Stiff.v
theories/Noise_spec.v
theories/Noise_proofs.v
theories/Noise_witness.v
theories/Properties_Noise.v
theories/Memory.v
theories/Memory_spec.v
theories/Memory_proofs.v
theories/Memory_witness.v
theories/Memory_builds.v
theories/Memory_builds_spec.v
theories/Memory_builds_proofs.v
theories/Memory_builds_witness.v
theories/Properties_Memory_builds.v
theories/Properties_Memory.v
theories/Broken.v
theories/Broken_spec.v
theories/Broken_proofs.v
theories/Broken_witness.v
theories/Properties_Broken.v
theories/Rows_spec.v
theories/Rows_proofs.v
theories/Stack_proofs.v
theories/Rows_app_proofs.v
theories/Rows_witness.v
theories/Properties_Rows.v
theories/Rows_omp_spec.v
theories/Rows_omp_proofs.v
theories/Rows_job_proofs.v
theories/Rows_run_proofs.v
theories/Rows_main_proofs.v
theories/Rows_omp_witness.v
theories/Properties_Rows_omp.v
theories/Disk_omp.v
theories/Builds_spec.v
theories/Builds_proofs.v
theories/Builds_witness.v
theories/Properties_Builds.v
theories/Console_omp.v
theories/Console_omp_spec.v
theories/Console_omp_proofs.v
theories/Console_omp_witness.v
theories/Properties_Console_omp.v
theories/Builds_args_spec.v
theories/Builds_args_proofs.v
theories/Properties_Builds_args.v
theories/Troubles.v
theories/Troubles_spec.v
theories/Troubles_proofs.v
theories/Troubles_witness.v
theories/Properties_Troubles.v
theories/Toil_spec.v
theories/Toil_proofs.v
theories/Toil_witness.v
theories/Properties_Toil.v
theories/Objects.v
theories/Objects_spec.v
theories/Objects_proofs.v
theories/Objects_witness.v
theories/Properties_Objects.v
theories/Doc_spec.v
theories/Doc_proofs.v
theories/Doc_witness.v
theories/Properties_Doc.v
theories/Total_spec.v
theories/Total_proofs.v
theories/Total_witness.v
theories/Properties_Total.v
theories/Total_builds_proofs.v
theories/Total_builds_witness.v
theories/Properties_Total_builds.v
theories/Factor_spec.v
theories/Factor_proofs.v
theories/Factor_witness.v
theories/Properties_Factor.v
theories/Factor_run_proofs.v
theories/Factor_run_witness.v
theories/Properties_Factor_runs.v
theories/Factor_omp_proofs.v
theories/Factor_omp_witness.v
theories/Properties_Factor_omp.v
