-Q theories Verif
theories/Adaptive_Model.v
theories/Adaptive_Proofs.v
theories/Adaptive_Proofs2.v
theories/Adaptive_Proofs3.v
theories/Adaptive_Props.v
theories/Adaptive_Tables.v
theories/AngleReduction_Model.v
theories/AngleReduction_Proofs.v
theories/AngleReduction_Props.v
theories/AngleReduction_Spec.v
theories/Approximation_Model.v
theories/Approximation_Proofs.v
theories/Approximation_Props.v
theories/Array_Model.v
theories/Array_Proofs.v
theories/Array_Props.v
theories/Base32768_Model.v
theories/Base32768_Proofs.v
theories/Base32768_Props.v
theories/Base32768_Tables.v
theories/Bits_Model.v
theories/Bits_Proofs.v
theories/Bits_Props.v
theories/Bundle_Model.v
theories/Bundle_Proofs.v
theories/Bundle_Props.v
theories/Chebyshev_Model.v
theories/Chebyshev_Proofs.v
theories/Chebyshev_Props.v
theories/Checkpointer_Model.v
theories/Checkpointer_Proofs.v
theories/Checkpointer_Props.v
theories/Cholesky_Model.v
theories/Cholesky_Proofs.v
theories/Cholesky_Props.v
theories/Cholesky_Spec.v
theories/Collision_Model.v
theories/Collision_Proofs.v
theories/Collision_Props.v
theories/Collision_Spec.v
theories/Complex_Model.v
theories/Complex_Proofs.v
theories/Complex_Props.v
theories/Complexification_Model.v
theories/Complexification_Proofs.v
theories/Complexification_Props.v
theories/ContinuousTrajectory_Model.v
theories/ContinuousTrajectory_Proofs.v
theories/ContinuousTrajectory_Proofs2.v
theories/ContinuousTrajectory_Props.v
theories/ContinuousTrajectory_Spec.v
theories/DateText_Model.v
theories/DateText_Proofs.v
theories/DateText_Props.v
theories/Date_Model.v
theories/Date_Proofs.v
theories/Date_Props.v
theories/Davenport_Model.v
theories/Davenport_Proofs.v
theories/Davenport_Props.v
theories/Davenport_Spec.v
theories/Dimensions_Model.v
theories/Dimensions_Proofs.v
theories/Dimensions_Props.v
theories/Dimensions_Spec.v
theories/DisjointSets_Model.v
theories/DisjointSets_Proofs.v
theories/DisjointSets_Props.v
theories/DoubleFrac_Proofs.v
theories/DoubleNext_Proofs.v
theories/DoubleOrder_Proofs.v
theories/DoubleScale_Proofs.v
theories/DoubleUlp_Proofs.v
theories/Double_Model.v
theories/Double_Proofs.v
theories/Double_Props.v
theories/Downsampling_Model.v
theories/Downsampling_Proofs.v
theories/Downsampling_Props.v
theories/EarthOrientation_Check.v
theories/EarthOrientation_Facts.v
theories/EarthOrientation_Model.v
theories/EarthOrientation_Proofs.v
theories/EarthOrientation_Props.v
theories/EarthOrientation_Tables.v
theories/Eigen_Model.v
theories/Eigen_Proofs.v
theories/Eigen_Proofs2.v
theories/Eigen_Proofs3.v
theories/Eigen_Props.v
theories/Eigen_Spec.v
theories/Ephemeris_Model.v
theories/Ephemeris_Proofs.v
theories/Ephemeris_Proofs2.v
theories/Ephemeris_Proofs3.v
theories/Ephemeris_Proofs4.v
theories/Ephemeris_Proofs5.v
theories/Ephemeris_Props.v
theories/Euler_Model.v
theories/Euler_Proofs.v
theories/Euler_Proofs2.v
theories/Euler_Proofs3.v
theories/Euler_Proofs4.v
theories/Euler_Proofs5.v
theories/Euler_Proofs6.v
theories/Euler_Props.v
theories/Euler_Spec.v
theories/Extrema_Model.v
theories/Extrema_Proofs.v
theories/Extrema_Proofs2.v
theories/Extrema_Proofs3.v
theories/Extrema_Proofs4.v
theories/Extrema_Props.v
theories/Extrema_Spec.v
theories/Fingerprint_Model.v
theories/Fingerprint_Proofs.v
theories/Fingerprint_Props.v
theories/FirstCollision_Model.v
theories/FirstCollision_Proofs.v
theories/FirstCollision_Props.v
theories/FlightPlan_Model.v
theories/FlightPlan_Proofs.v
theories/FlightPlan_Props.v
theories/FourierTransform_Model.v
theories/FourierTransform_Proofs.v
theories/FourierTransform_Props.v
theories/Geometry_Model.v
theories/Geometry_Proofs.v
theories/Geometry_Proofs2.v
theories/Geometry_Props.v
theories/GeopotentialField_Proofs.v
theories/GeopotentialLimits_Proofs.v
theories/GeopotentialThresholds_Proofs.v
theories/Geopotential_Model.v
theories/Geopotential_Proofs.v
theories/Geopotential_Props.v
theories/Hermite_Model.v
theories/Hermite_Proofs.v
theories/Hex_Model.v
theories/Hex_Proofs.v
theories/Hex_Props.v
theories/Hierarchy_Model.v
theories/Hierarchy_Proofs.v
theories/Hierarchy_Proofs2.v
theories/Hierarchy_Props.v
theories/Journal_Model.v
theories/Journal_Proofs.v
theories/Journal_Proofs2.v
theories/Journal_Proofs3.v
theories/Journal_Props.v
theories/Journal_Spec.v
theories/Julian_Proofs.v
theories/Julian_Props.v
theories/Kepler_Model.v
theories/Kepler_Proofs.v
theories/Kepler_Proofs2.v
theories/Kepler_Proofs3.v
theories/Kepler_Proofs4.v
theories/Kepler_Proofs5.v
theories/Kepler_Proofs6.v
theories/Kepler_Proofs7.v
theories/Kepler_Proofs8.v
theories/Kepler_Proofs9.v
theories/Kepler_Props.v
theories/Kepler_Props2.v
theories/Lattice_Model.v
theories/Lattice_Proofs.v
theories/Lattice_Proofs2.v
theories/Lattice_Proofs3.v
theories/Lattice_Props.v
theories/Lattice_Spec.v
theories/Legendre_Model.v
theories/Legendre_Proofs.v
theories/Legendre_Proofs2.v
theories/Legendre_Props.v
theories/Legendre_Spec.v
theories/Manoeuvre_Model.v
theories/Manoeuvre_Proofs.v
theories/Manoeuvre_Props.v
theories/Matrix_Model.v
theories/Matrix_Proofs.v
theories/Matrix_Proofs2.v
theories/Matrix_Props.v
theories/Matrix_Spec.v
theories/MechanicalSystem_Model.v
theories/MechanicalSystem_Proofs.v
theories/MechanicalSystem_Proofs2.v
theories/MechanicalSystem_Props.v
theories/MechanicalSystem_Spec.v
theories/Multistep_Model.v
theories/Multistep_Proofs.v
theories/Multistep_Proofs2.v
theories/Multistep_Proofs3.v
theories/Multistep_Proofs4.v
theories/Multistep_Proofs5.v
theories/Multistep_Proofs6.v
theories/Multistep_Proofs7.v
theories/Multistep_Props.v
theories/Multistep_Props2.v
theories/Multistep_Tables.v
theories/NearestNeighbour_Model.v
theories/NearestNeighbour_Proofs.v
theories/NearestNeighbour_Props.v
theories/NguyenStehle_Model.v
theories/NguyenStehle_Proofs.v
theories/NguyenStehle_Proofs2.v
theories/NguyenStehle_Proofs3.v
theories/NguyenStehle_Proofs4.v
theories/NguyenStehle_Proofs5.v
theories/NguyenStehle_Proofs6.v
theories/NguyenStehle_Props.v
theories/NguyenStehle_Spec.v
theories/OneStep_Model.v
theories/OneStep_Proofs.v
theories/OneStep_Proofs2.v
theories/OneStep_Proofs3.v
theories/OneStep_Props.v
theories/Order_Proofs.v
theories/Order_Proofs2.v
theories/Order_Proofs3.v
theories/Order_Proofs4.v
theories/Order_Proofs5.v
theories/Order_Proofs6.v
theories/Order_Proofs7.v
theories/Order_Proofs8.v
theories/Order_Proofs9.v
theories/Order_Props.v
theories/Order_Props2.v
theories/Parser_Model.v
theories/Parser_Proofs.v
theories/Parser_Props.v
theories/PartSubsets_Model.v
theories/PartSubsets_Proofs.v
theories/PartSubsets_Props.v
theories/Perspective_Model.v
theories/Perspective_Proofs.v
theories/Perspective_Proofs2.v
theories/Perspective_Proofs3.v
theories/Perspective_Proofs4.v
theories/Perspective_Proofs5.v
theories/Perspective_Props.v
theories/Perspective_Spec.v
theories/Polynomial_Model.v
theories/Polynomial_Proofs.v
theories/Polynomial_Props.v
theories/Protector_Model.v
theories/Protector_Proofs.v
theories/Protector_Props.v
theories/PullSerializer_Model.v
theories/PullSerializer_Proofs.v
theories/PullSerializer_Props.v
theories/PushDeserializer_Model.v
theories/PushDeserializer_Proofs.v
theories/PushDeserializer_Props.v
theories/PushPull_Model.v
theories/PushPull_Proofs.v
theories/PushPull_Props.v
theories/PushPull_Spec.v
theories/Recurrence_Model.v
theories/Recurrence_Proofs.v
theories/Recurrence_Proofs2.v
theories/Recurrence_Props.v
theories/Recurrence_Spec.v
theories/Recurring_Model.v
theories/Recurring_Proofs.v
theories/Recurring_Props.v
theories/Recurring_Spec.v
theories/ReferenceFrame_Model.v
theories/ReferenceFrame_Proofs.v
theories/ReferenceFrame_Proofs2.v
theories/ReferenceFrame_Proofs3.v
theories/ReferenceFrame_Props.v
theories/RootFinders_Model.v
theories/RootFinders_Proofs.v
theories/RootFinders_Props.v
theories/RotatingBody_Model.v
theories/RotatingBody_Proofs.v
theories/RotatingBody_Props.v
theories/SimilarMotion_Proofs.v
theories/Symplectic_Tables.v
theories/ThreadPool_Model.v
theories/ThreadPool_Proofs.v
theories/ThreadPool_Props.v
theories/TimeScales_Model.v
theories/TimeScales_Proofs.v
theories/TimeScales_Props.v
theories/TrajectoryHistory_Proofs.v
theories/TrajectoryIterator_Proofs.v
theories/Trajectory_Model.v
theories/Trajectory_Proofs.v
theories/Trajectory_Props.v
theories/VectorCalculus_Proofs.v
