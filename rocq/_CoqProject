-Q theories Verif
theories/M_Storyboard.v
theories/S_Storyboard.v
theories/P_Storyboard.v
theories/P_StoryboardInv.v
theories/T_Storyboard.v
theories/M_Condition.v
theories/S_Condition.v
theories/P_Condition.v
theories/T_Condition.v
theories/M_Scope.v
theories/S_Scope.v
theories/P_Scope.v
theories/P_ScopeBuild.v
theories/T_Scope.v
theories/M_Signal.v
theories/S_Signal.v
theories/P_Signal.v
theories/T_Signal.v
theories/M_Parameter.v
theories/S_Parameter.v
theories/P_Parameter.v
theories/T_Parameter.v
theories/M_Preprocessor.v
theories/S_Preprocessor.v
theories/T_Preprocessor.v
theories/M_Job.v
theories/S_Job.v
theories/P_Job.v
theories/T_Job.v
theories/M_SpeedRequest.v
theories/S_SpeedRequest.v
theories/P_SpeedRequest.v
theories/T_SpeedRequest.v
theories/M_World.v
theories/S_World.v
theories/P_World.v
theories/T_World.v
theories/M_Clock.v
theories/S_Clock.v
theories/T_Clock.v
theories/M_Source.v
theories/T_Source.v
theories/M_Update.v
theories/T_Update.v
theories/M_Front.v
theories/T_Front.v
theories/M_TrafficLight.v
theories/S_TrafficLight.v
theories/P_TrafficLight.v
theories/P_TrafficLightSet.v
theories/P_TrafficLightChan.v
theories/T_TrafficLight.v
theories/M_SpeedPlan.v
theories/P_SpeedPlan.v
theories/T_SpeedPlan.v
theories/M_TimePlan.v
theories/T_TimePlan.v
theories/M_Lane.v
theories/S_Lane.v
theories/P_Lane.v
theories/P_LaneWalk.v
theories/T_LanePose.v
theories/P_LaneRoute.v
theories/T_LaneRoute.v
theories/P_LaneDistance.v
theories/T_LaneDistance.v
theories/P_StoryboardEval.v
theories/P_StoryboardStop.v
theories/P_StoryboardProgress.v
theories/T_StoryboardProgress.v
theories/T_SpeedRelative.v
theories/M_Expression.v
theories/S_Expression.v
theories/P_Expression.v
theories/T_Expression.v
theories/M_Attribute.v
theories/S_Attribute.v
theories/T_Attribute.v
theories/M_Interpreter.v
theories/S_Interpreter.v
theories/P_Interpreter.v
theories/T_Interpreter.v
theories/M_StatusMonitor.v
theories/T_StatusMonitor.v
theories/M_Grid.v
theories/S_Grid.v
theories/P_Grid.v
theories/P_GridMark.v
theories/P_GridShape.v
theories/T_Grid.v
theories/M_Sensors.v
theories/S_Sensors.v
theories/P_Sensors.v
theories/P_Sensors2.v
theories/P_Sensors3.v
theories/P_SensorNoise.v
theories/T_Sensors.v
theories/M_Entities.v
theories/S_Entities.v
theories/P_Entities.v
theories/M_EntityCondition.v
theories/S_EntityCondition.v
theories/T_Entities.v
theories/T_EntityCondition.v
theories/M_Concealer.v
theories/S_Concealer.v
theories/P_Concealer.v
theories/P_Concealer2.v
theories/P_Concealer3.v
theories/T_Concealer.v
theories/T_Concealer2.v
theories/M_Behavior.v
theories/S_Behavior.v
theories/P_Behavior.v
theories/P_Behavior2.v
theories/P_Behavior3.v
theories/P_Behavior4.v
theories/P_Behavior5.v
theories/T_Behavior.v
theories/T_Behavior2.v
theories/T_Behavior3.v
theories/T_Behavior4.v
theories/T_Behavior5.v
theories/M_FollowControl.v
theories/S_FollowControl.v
theories/P_FollowControl.v
theories/P_FollowControl2.v
theories/T_FollowControl.v
theories/M_FollowTrajectory.v
theories/S_FollowTrajectory.v
theories/P_FollowTrajectory.v
theories/P_FollowTrajectory2.v
theories/T_FollowTrajectory.v
theories/T_FollowTrajectory2.v
theories/S_FollowPredict.v
theories/T_FollowPredict.v
theories/M_Segment.v
theories/S_Segment.v
theories/P_Segment.v
theories/P_Segment2.v
theories/T_Segment.v
theories/M_Solver.v
theories/S_Solver.v
theories/P_Solver.v
theories/T_Solver.v
theories/M_Spline.v
theories/S_Spline.v
theories/P_Spline.v
theories/P_Spline2.v
theories/T_Spline.v
theories/P_SplineHit.v
theories/P_SplineTrack.v
theories/T_SplineHit.v
theories/M_Vehicle.v
theories/S_Vehicle.v
theories/P_Vehicle.v
theories/T_Vehicle.v
theories/S_AccMap.v
theories/T_AccMap.v
theories/M_Ego.v
theories/S_Ego.v
theories/T_Ego.v
theories/M_Box.v
theories/S_Box.v
theories/P_Box.v
theories/T_Box.v
theories/M_Reader.v
theories/S_Reader.v
theories/T_Reader.v
theories/M_Obstacle.v
theories/S_Obstacle.v
theories/T_Obstacle.v
theories/M_Publish.v
theories/S_Publish.v
theories/P_Publish.v
theories/T_Publish.v
theories/M_Conversion.v
theories/S_Conversion.v
theories/T_Conversion.v
theories/M_Status.v
theories/S_Status.v
theories/T_Status.v
theories/M_Npc.v
theories/S_Npc.v
theories/T_Npc.v
theories/M_Reset.v
theories/T_Reset.v
theories/M_Route.v
theories/S_Route.v
theories/T_Route.v
theories/M_Action.v
theories/S_Action.v
theories/T_Action.v
theories/M_LaneChange.v
theories/S_LaneChange.v
theories/T_LaneChange.v
theories/M_Cache.v
theories/S_Cache.v
theories/T_Cache.v
theories/M_Match.v
theories/S_Match.v
theories/T_Match.v
theories/M_Orca.v
theories/S_Orca.v
theories/P_Orca.v
theories/T_Orca.v
theories/M_Goal.v
theories/S_Goal.v
theories/T_Goal.v
theories/M_Quaternion.v
theories/S_Quaternion.v
theories/P_Quaternion.v
theories/T_Quaternion.v
theories/M_Nothing.v
theories/S_Nothing.v
theories/T_Nothing.v
theories/M_Displace.v
theories/S_Displace.v
theories/T_Displace.v
theories/M_LidarNoise.v
theories/S_LidarNoise.v
theories/P_LidarNoise.v
theories/T_LidarNoise.v
theories/M_Imu.v
theories/S_Imu.v
theories/P_Imu.v
theories/T_Imu.v
theories/M_Rays.v
theories/S_Rays.v
theories/T_Rays.v
theories/M_Random.v
theories/S_Random.v
theories/T_Random.v
theories/M_UserValue.v
theories/S_UserValue.v
theories/T_UserValue.v
theories/M_Catalog.v
theories/S_Catalog.v
theories/T_Catalog.v
theories/M_Rate.v
theories/S_Rate.v
theories/T_Rate.v
